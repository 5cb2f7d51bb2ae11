(** Parsing a written document computes its meaning. *)
From Verif Require Import Base ConfigModel ConfigSpec ConfigProofs ConfigProofs2 ConfigProofs3 ConfigProofs4
  ExpandModel ExpandSpec ExpandProofs ParserModel ParserSpec ParserProofs ParserProofs2 ParserProofs3 ParserProofs4 ParserProofs5 DocSpec.

Lemma expand_f_ext t1 t2 : (forall ty, match t1 ty, t2 ty with Some f, Some g => forall n, f n = g n | None, None => True | _, _ => False end) ->
  forall n s, expand_f n t1 s = expand_f n t2 s.
Proof.
  intros H n. induction n as [|n IH]; intro s; [reflexivity|]. cbn [expand_f].
  destruct (find_match s) as [[[[pre ty] nm] rest]|]; [|reflexivity]. rewrite IH. destruct (expand_f n t2 rest); [|reflexivity].
  specialize (H ty). destruct (t1 ty), (t2 ty); try contradiction; [rewrite H|]; reflexivity.
Qed.
Lemma expand_ext t1 t2 : (forall ty, match t1 ty, t2 ty with Some f, Some g => forall n, f n = g n | None, None => True | _, _ => False end) ->
  forall s, expand t1 s = expand t2 s.
Proof. intros H s. unfold expand. rewrite (expand_f_ext t1 t2 H). reflexivity. Qed.

(** Physical lines of written text. *)
Lemma lines_of_line l r : ~ In "010"%char l -> lines_of (l ++ "010"%char :: r) = l :: lines_of r.
Proof.
  induction l as [|c l IH]; intro H; [reflexivity|]. cbn [app lines_of].
  destruct (Ascii.eqb_spec c "010"); [destruct H; left; auto|]. rewrite IH; [reflexivity|]. intro X. apply H. right. exact X.
Qed.
Lemma lines_of_text ls : (forall l, In l ls -> ~ In "010"%char l) -> lines_of (file_text ls) = ls.
Proof.
  unfold file_text. induction ls as [|l ls IH]; intro H; [reflexivity|]. cbn [map concat]. rewrite <- app_assoc.
  cbn [app]. rewrite lines_of_line by (apply H; left; auto). rewrite IH; auto. intros; apply H; right; auto.
Qed.

(** Tokens of written lines. *)
Lemma word_no s c : is_word s -> word_char c = false -> ~ In c s.
Proof.
  intros (a & m & e & -> & Ha & _ & Hm & _) Hc Hin. destruct Hin as [<-|Hin].
  - unfold word_char in Hc. rewrite Ha in Hc. discriminate.
  - apply Hm, word_char_spec in Hin. congruence.
Qed.
Lemma word_ends s : is_word s -> exists c m e, s = c :: m ++ [e] /\ is_space c = false /\ is_space e = false.
Proof.
  intros (c & m & e & -> & Ha & _ & Hm & _). exists c, m, e. split; auto. split.
  - revert Ha. destruct c as [[] [] [] [] [] [] [] []]; vm_compute; congruence.
  - assert (X : word_symbol e) by (apply Hm, in_or_app; right; left; auto). apply word_char_spec in X. revert X.
    clear. destruct e as [[] [] [] [] [] [] [] []]; vm_compute; congruence.
Qed.
(** A word followed by a non-word character is the maximal munch. *)
Lemma lexes_word s r t : is_word s -> (r = [] \/ exists c r', r = c :: r' /\ word_char c = false) -> is_trim r t ->
  lexes (s ++ r) (Word s) t.
Proof.
  intros Hs Hr Ht. constructor; auto. intros s' r' E Hw.
  destruct (le_lt_dec (length s') (length s)); auto. exfalso.
  assert (exists x, s' = s ++ x /\ r = x ++ r') as (x & -> & ->).
  { clear -E l. revert s' E l. induction s as [|c s IH]; intros s' E l.
    - exists s'. auto.
    - destruct s' as [|c' s']; [cbn in l; lia|]. cbn in E. injection E as <- E. destruct (IH s' E) as (x & -> & ->); [cbn in l; lia|].
      exists x. auto. }
  rewrite app_length in l. destruct x as [|c x]; [cbn in l; lia|].
  destruct Hr as [?|(c0 & r0 & E0 & Hc)]; [discriminate|]. injection E0 as <- _.
  apply (word_no _ c Hw Hc). apply in_or_app. right. left. reflexivity.
Qed.
Lemma is_trim_trim s : is_trim s (trim s). Proof. apply trim_is_trim. Qed.

Lemma trim_tight c m e : is_space c = false -> is_space e = false -> trim (c :: m ++ [e]) = c :: m ++ [e].
Proof.
  intros Hc He. symmetry. apply is_trim_unique. exists [], []. cbn. rewrite app_nil_r. repeat split; auto; try (intros ? []; fail).
  - intros c0 r0 E. injection E as <- _. exact Hc.
  - intros c0 r0 E. change (c :: m ++ [e]) with ((c :: m) ++ [e]) in E. apply app_inj_tail in E as [_ <-]. exact He.
Qed.
Definition eqv (v : str) : str := match v with [] => L "=" | _ => L "= " ++ v end.
Lemma eqv_sp v : exists sp, forallb is_space sp = true /\ L "= " ++ v = eqv v ++ sp.
Proof. destruct v; [exists (L " ")|exists []; rewrite app_nil_r]; split; reflexivity. Qed.
Lemma eqv_last v : trim v = v -> exists m e, eqv v = m ++ [e] /\ is_space e = false.
Proof.
  intro H. destruct v as [|c v]; [exists [], "="%char; split; reflexivity|].
  destruct (trim_is_trim (c :: v)) as (a & b & _ & _ & _ & _ & Ht). rewrite H in Ht.
  destruct (rev_case (c :: v)) as [E|[e [m E]]]; [discriminate|]. specialize (Ht e m E).
  exists (L "= " ++ m), e. unfold eqv. rewrite E, <- app_assoc. auto.
Qed.
Lemma eqv_trim c x v : is_space c = false -> trim v = v -> trim (c :: x ++ L "= " ++ v) = c :: x ++ eqv v.
Proof.
  intros Hc Hv. destruct (eqv_sp v) as (sp & Hsp & ->). destruct (eqv_last v Hv) as (m & e & -> & He).
  change (c :: x ++ (m ++ [e]) ++ sp) with ((c :: x) ++ (m ++ [e]) ++ sp). rewrite app_assoc, trim_app_space_r by auto.
  rewrite app_assoc. cbn [app]. rewrite trim_tight by auto. rewrite <- app_assoc. reflexivity.
Qed.
Lemma eqv_trim0 v : trim v = v -> trim (eqv v) = eqv v.
Proof.
  intro Hv. destruct v as [|c v]; [reflexivity|]. change (eqv (c :: v)) with ("="%char :: [" "%char] ++ (c :: v)).
  destruct (eqv_last (c :: v) Hv) as (m & e & E & He).
  change (eqv (c :: v)) with ("="%char :: [" "%char] ++ (c :: v)) in E.
  destruct m as [|c1 m]; [discriminate|]. rewrite E. cbn [app] in E. injection E as <- _. apply trim_tight; auto.
Qed.
Lemma eqv_lex v ls n : trim v = v -> next (mkPos (eqv v) ls n) (Assign v) (mkPos [] ls n).
Proof.
  intro Hv. constructor; [destruct v; discriminate|].
  assert (exists r, eqv v = L "=" ++ r /\ trim r = v) as (r & -> & <-).
  { destruct v; [exists []; split; reflexivity|]. exists (L " " ++ a :: v). split; auto.
    rewrite trim_app_space_l; auto. }
  constructor. apply is_trim_trim.
Qed.
Lemma ceqv_lex v ls n : trim v = v -> next (mkPos (L ":" ++ eqv v) ls n) (Define v) (mkPos [] ls n).
Proof.
  intro Hv. constructor; [destruct v; discriminate|].
  assert (exists r, eqv v = L "=" ++ r /\ trim r = v) as (r & -> & <-).
  { destruct v; [exists []; split; reflexivity|]. exists (L " " ++ a :: v). split; auto.
    rewrite trim_app_space_l; auto. }
  apply (lx_define r). apply is_trim_trim.
Qed.
Lemma says_nohash l : ~ In "#"%char l -> says l (trim l).
Proof. intro H. exists l. split; auto. split; auto. apply is_trim_trim. Qed.
Lemma trim_eq_is s t : trim s = t -> is_trim s t.
Proof. intros <-. apply is_trim_trim. Qed.
Lemma next_word_line l s r t ls n : ~ In "#"%char l -> trim l = s ++ r -> is_word s ->
  (r = [] \/ exists c r', r = c :: r' /\ word_char c = false) -> trim r = t ->
  next (mkPos [] (l :: ls) n) (Word s) (mkPos t ls (n + 1)).
Proof.
  intros Hh E Hs Hr Ht. eapply nx_line; [apply says_nohash; auto| |].
  - rewrite E. destruct Hs as (c & m & e & -> & _). discriminate.
  - rewrite E. apply lexes_word; auto. apply trim_eq_is; auto.
Qed.
Lemma next_word_rest s r t ls n : is_word s ->
  (r = [] \/ exists c r', r = c :: r' /\ word_char c = false) -> trim r = t ->
  next (mkPos (s ++ r) ls n) (Word s) (mkPos t ls n).
Proof.
  intros Hs Hr Ht. constructor; [destruct Hs as (c & m & e & -> & _); discriminate|].
  apply lexes_word; auto. apply trim_eq_is; auto.
Qed.
Lemma flag_next v ls n : trim v = v -> next (mkPos (L "[RO] " ++ eqv v) ls n) (Flag (L "[RO]")) (mkPos (eqv v) ls n).
Proof.
  intro Hv. constructor; [discriminate|]. apply (lx_flag (L "[RO]") (L " " ++ eqv v)).
  - exists (L "RO"). split; [reflexivity|]. split; [discriminate|]. intros x [<-|[<-|[]]]; left; reflexivity.
  - apply trim_eq_is. rewrite trim_app_space_l by auto. apply eqv_trim0; auto.
Qed.
Lemma flags_written (ro : bool) v ls n : trim v = v ->
  ro_flags (mkPos ((if ro then L "[RO] " else []) ++ eqv v) ls n) ro (Assign v) (mkPos [] ls n).
Proof.
  intro Hv. destruct ro.
  - eapply rf_one; [apply flag_next; auto|reflexivity|]. apply rf_none; [apply eqv_lex; auto|discriminate].
  - apply rf_none; [apply eqv_lex; auto|discriminate].
Qed.

Lemma kw_word k : In k keywords -> is_word k.
Proof.
  intros [<-|[<-|[<-|[<-|[]]]]].
  - exists "i"%char, (L "nclud"), "e"%char. repeat split; try discriminate. intros x Hx. apply word_char_spec.
    vm_compute in Hx. repeat (destruct Hx as [<-|Hx]; [reflexivity|]). destruct Hx.
  - exists "b"%char, (L "loc"), "k"%char. repeat split; try discriminate. intros x Hx. apply word_char_spec.
    vm_compute in Hx. repeat (destruct Hx as [<-|Hx]; [reflexivity|]). destruct Hx.
  - exists "e"%char, (L "ndbloc"), "k"%char. repeat split; try discriminate. intros x Hx. apply word_char_spec.
    vm_compute in Hx. repeat (destruct Hx as [<-|Hx]; [reflexivity|]). destruct Hx.
  - exists "r"%char, (L "elativepat"), "h"%char. repeat split; try discriminate. intros x Hx. apply word_char_spec.
    vm_compute in Hx. repeat (destruct Hx as [<-|Hx]; [reflexivity|]). destruct Hx.
Qed.

Definition tailv (ro : bool) v : str := (if ro then L "[RO] " else []) ++ eqv v.
(** Tokens of a written entry. *)
Lemma entry_lhs (rel ro : bool) k v ls n : plain_key k -> plain_value v ->
  lhs (mkPos [] (((if rel then L "relativepath " else []) ++ k ++ (if ro then L "[RO]" else []) ++ L " = " ++ v) :: ls) n)
      rel k (mkPos (tailv ro v) ls (n + 1)).
Proof.
  intros [Hk Hkw] [Hv [Hh _]]. assert (Hvt : trim v = v) by (symmetry; apply is_trim_unique; auto).
  destruct (word_ends k Hk) as (c & m & e & Ek & Hc & He).
  assert (NH : ~ In "#"%char k) by (apply word_no; auto).
  assert (TK : trim (k ++ (if ro then L "[RO]" else []) ++ L " = " ++ v) = k ++ (if ro then L "[RO]" else []) ++ L " " ++ eqv v).
  { rewrite Ek. set (fl := if ro then L "[RO]" else []).
    assert (E1 : forall y, (c :: m ++ [e]) ++ fl ++ L " " ++ y = c :: ((m ++ [e]) ++ fl ++ L " ") ++ y).
    { intro y. cbn [app]. rewrite <- !app_assoc. reflexivity. }
    change (L " = " ++ v) with (L " " ++ L "= " ++ v). rewrite !E1. apply eqv_trim; auto. }
  assert (TR : trim ((if ro then L "[RO]" else []) ++ L " " ++ eqv v) = tailv ro v).
  { unfold tailv. destruct ro.
    - destruct (eqv_last v Hvt) as (m1 & e1 & E1 & He1). rewrite E1. rewrite !app_assoc.
      change ((L "[RO]" ++ L " ") ++ m1) with ("["%char :: L "RO] " ++ m1). cbn [app]. rewrite trim_tight; auto.
    - cbn [app]. rewrite (trim_app_space_l (L " ")) by auto. apply eqv_trim0; auto. }
  assert (BR : exists c r', (if ro then L "[RO]" else []) ++ L " " ++ eqv v = c :: r' /\ word_char c = false).
  { destruct ro; do 2 eexists; split; reflexivity. }
  destruct rel.
  - eapply (lhs_rel _ (Word (L "relativepath"))); [|reflexivity|].
    + eapply (next_word_line _ (L "relativepath") (L " " ++ k ++ (if ro then L "[RO]" else []) ++ L " " ++ eqv v)).
      * intro X. apply in_app_or in X as [X|X]; [vm_compute in X; intuition discriminate|].
        apply in_app_or in X as [X|X]; [auto|]. apply in_app_or in X as [X|X]; [destruct ro; vm_compute in X; intuition discriminate|].
        apply in_app_or in X as [X|X]; [vm_compute in X; intuition discriminate|auto].
      * change (L "relativepath " ++ ?x) with ("r"%char :: L "elativepath " ++ x).
        set (fl := if ro then L "[RO]" else []).
        assert (E1 : forall y, "r"%char :: L "elativepath " ++ k ++ fl ++ L " " ++ y = "r"%char :: (L "elativepath " ++ k ++ fl ++ L " ") ++ y).
        { intro y. rewrite <- !app_assoc. reflexivity. }
        change (L " = " ++ v) with (L " " ++ L "= " ++ v). rewrite E1. rewrite eqv_trim by auto. rewrite <- E1. reflexivity.
      * apply kw_word. cbn. auto.
      * right. do 2 eexists. split; reflexivity.
      * rewrite trim_app_space_l by auto. rewrite <- TK at 1. rewrite trim_idem. exact TK.
    + apply next_word_rest; auto.
  - apply lhs_plain; auto. eapply next_word_line; [|exact TK|exact Hk|right; exact BR|exact TR].
    cbn [app]. intro X. apply in_app_or in X as [X|X]; [auto|]. apply in_app_or in X as [X|X]; [destruct ro; vm_compute in X; intuition discriminate|].
    apply in_app_or in X as [X|X]; [vm_compute in X; intuition discriminate|auto].
Qed.
Lemma def_lhs k v ls n : plain_key k -> plain_value v ->
  lhs (mkPos [] ((k ++ L " := " ++ v) :: ls) n) false k (mkPos (L ":" ++ eqv v) ls (n + 1)).
Proof.
  intros [Hk Hkw] [Hv [Hh _]]. assert (Hvt : trim v = v) by (symmetry; apply is_trim_unique; auto).
  destruct (word_ends k Hk) as (c & m & e & Ek & Hc & He).
  assert (NH : ~ In "#"%char k) by (apply word_no; auto).
  apply lhs_plain; auto. eapply (next_word_line _ k (L " :" ++ eqv v)); auto.
  - intro X. apply in_app_or in X as [X|X]; auto. apply in_app_or in X as [X|X]; [vm_compute in X; intuition discriminate|auto].
  - rewrite Ek. assert (E1 : forall y, (c :: m ++ [e]) ++ L " :" ++ y = c :: ((m ++ [e]) ++ L " :") ++ y).
    { intro y. cbn [app]. rewrite <- !app_assoc. reflexivity. }
    change (L " := " ++ v) with (L " :" ++ L "= " ++ v). rewrite !E1. apply eqv_trim; auto.
  - right. do 2 eexists. split; reflexivity.
  - change (L " :" ++ eqv v) with (L " " ++ L ":" ++ eqv v). rewrite trim_app_space_l by auto.
    destruct (eqv_last v Hvt) as (m1 & e1 & E1 & He1). rewrite E1. rewrite app_assoc. cbn [app]. apply (trim_tight ":"%char); auto.
Qed.

Lemma block_next nm ls n : is_word nm ->
  next (mkPos [] ((L "block " ++ nm) :: ls) n) (Word (L "block")) (mkPos nm ls (n + 1)) /\
  next (mkPos nm ls (n + 1)) (Word nm) (mkPos [] ls (n + 1)).
Proof.
  intro H. destruct (word_ends nm H) as (c & m & e & Ek & Hc & He). split.
  - eapply (next_word_line _ (L "block") (L " " ++ nm)).
    + intro X. apply in_app_or in X as [X|X]; [vm_compute in X; intuition discriminate|]. revert X. apply word_no; auto.
    + assert (E1 : L "block " ++ nm = "b"%char :: (L "lock " ++ c :: m) ++ [e]) by (rewrite Ek; reflexivity).
      rewrite E1, trim_tight by auto. rewrite <- E1. reflexivity.
    + apply kw_word. cbn. auto.
    + right. do 2 eexists. split; reflexivity.
    + rewrite trim_app_space_l by auto. rewrite Ek. apply trim_tight; auto.
  - pose proof (next_word_rest nm [] [] ls (n + 1) H (or_introl eq_refl) eq_refl) as X. rewrite app_nil_r in X. exact X.
Qed.
Lemma endblock_next ls n : next (mkPos [] (L "endblock" :: ls) n) (Word (L "endblock")) (mkPos [] ls (n + 1)).
Proof.
  eapply (next_word_line _ (L "endblock") []); auto.
  - vm_compute. intuition discriminate.
  - apply kw_word. cbn. auto.
Qed.

Record models (st : pst) (e : env) : Prop := {
  md_live : live (p_heap st);
  md_holds : holds (p_heap st) e;
  md_sym : forall k, sfind k (p_sym st) = e_sym e k }.

Lemma models_expand w st e v : models st e -> expand (token_lookup w st) v = expand (refs w e) v.
Proof.
  intros [_ H2 H3]. apply expand_ext. intro ty. unfold token_lookup, refs.
  destruct (str_eqb ty (L "ENV")); [intro; destruct (w_env w n); reflexivity|].
  destruct (str_eqb ty (L "SYSENV")); [auto|].
  destruct (str_eqb ty (L "CONFIG")).
  - intro n. destruct (H2 n) as (-> & _). destruct (e_val e n); reflexivity.
  - destruct (str_eqb ty (L "LOCAL")); auto. intro n. rewrite H3. destruct (e_sym e n); reflexivity.
Qed.
Definition same_frame (a b : pst) : Prop :=
  p_ctx b = p_ctx a /\ p_blocks b = p_blocks a /\ p_incs b = p_incs a /\ p_count b = p_count a /\ p_err b = p_err a /\ p_tl b = [].

Lemma holds_assign h h' e key x (ro : bool) : holds h e -> e_ro e key = false ->
  get_string h' 0 key = Ok x -> has_value h' 0 key = Ok true ->
  (forall k, k <> key -> get_string h' 0 k = get_string h 0 k /\ has_value h' 0 k = has_value h 0 k) ->
  live h' -> (forall k, is_read_only h' 0 k = Ok true <-> (ro = true /\ k = key) \/ is_read_only h 0 k = Ok true) ->
  holds h' (mkE (put key (Some x) (e_val e)) (put key (ro || e_ro e key) (e_ro e)) (e_sym e)).
Proof.
  intros H Hro G V O HL R k. unfold put. cbn [e_val e_ro]. destruct (H k) as (H1 & H2 & H3).
  destruct (str_eqb_spec k key) as [->|N].
  - split; auto. split; auto. rewrite Hro. destruct (ro_bool h' key HL) as [E|E]; rewrite E.
    + apply R in E as [[-> _]|E]; [reflexivity|]. rewrite H3, Hro in E. discriminate.
    + destruct ro; [|reflexivity]. exfalso. assert (is_read_only h' 0 key = Ok true) by (apply R; auto). congruence.
  - destruct (O k N) as [-> ->]. split; auto. split; auto.
    destruct (ro_bool h' k HL) as [E|E]; rewrite E.
    + apply R in E as [[_ ?]|E]; [congruence|]. congruence.
    + destruct (e_ro e k) eqn:Ee; [|reflexivity]. exfalso. assert (is_read_only h' 0 k = Ok true) by (apply R; auto). congruence.
Qed.

Lemma doc_run w file : forall d ns e st ls, well_formed d -> ctx_rel ns (p_ctx st) (p_blocks st) -> models st e -> p_tl st = [] ->
  match denote w file ns d e with
  | inl e' => exists m st', (forall n, loop (m + n) w file st (write d ++ ls) = loop n w file st' ls) /\
      models st' e' /\ same_frame st st'
  | inr k => exists m cur x st', forall n, loop (m + n) w file st (write d ++ ls) = PThrow (CfgExn (SetOnReadOnly k cur x)) st'
  end.
Proof.
  induction d as [|rel ro k v rest IH|k v rest IH|nm body IHb rest IHr]; intros ns e st ls WF HC HM Htl.
  - cbn. exists 0, st. split; [reflexivity|]. split; auto. repeat split; auto.
  - destruct WF as (Hk & Hv & WF). cbn [denote write app]. cbv zeta.
    assert (Hvt : trim v = v) by (symmetry; apply is_trim_unique; apply Hv).
    set (key := abs_key ns k). set (x := if rel then dir_of w file ++ L "/" ++ expand (refs w e) v else expand (refs w e) v).
    set (ln := (if rel then L "relativepath " else []) ++ k ++ (if ro then L "[RO]" else []) ++ L " = " ++ v).
    pose proof (entry_lhs rel ro k v (write rest ++ ls) (p_line st) Hk Hv) as Hl. fold ln in Hl.
    pose proof (flags_written ro v (write rest ++ ls) (p_line st + 1) Hvt) as Hf. fold (tailv ro v) in Hf.
    assert (STEP : forall n, loop (S n) w file st (ln :: write rest ++ ls) =
       match assign (p_heap st) key x file (p_line st + 1) ro with
       | (h', Ok _) => loop n w file (with_heap (with_line st (p_line st + 1)) h') (write rest ++ ls)
       | (h', Throw e0) => PThrow (CfgExn e0) (with_heap (with_line st (p_line st + 1)) h')
       | _ => PStuck
       end).
    { intro n. rewrite (lhs_step n w file st (ln :: write rest ++ ls) rel k (mkPos (tailv ro v) (write rest ++ ls) (p_line st + 1))).
      2:{ unfold at_pos. rewrite Htl. exact Hl. }
      cbn [after].
      destruct (entry_step n w file rel k (moved st (mkPos (tailv ro v) (write rest ++ ls) (p_line st + 1))) (write rest ++ ls) ro (Assign v)
         (mkPos [] (write rest ++ ls) (p_line st + 1)) Hf) as (t4 & v4 & K & ->).
      destruct t4; try discriminate K. injection K as ->. cbv zeta.
      rewrite moved_moved. rewrite (models_expand w (moved st (mkPos [] (write rest ++ ls) (p_line st + 1))) e v) by (destruct HM; constructor; auto).
      fold x. cbn [p_heap p_ctx moved with_tl with_line num here after]. rewrite (ctx_abs _ _ _ k HC). fold key.
      destruct (assign _ _ _ _ _ _) as [h' [u|e0| |]]; try reflexivity; unfold moved, with_heap, with_tl, with_line; cbn; rewrite Htl; reflexivity. }
    pose proof (assign_live (p_heap st) key x file (p_line st + 1) ro (md_live _ _ HM)) as A.
    destruct (md_holds _ _ HM key) as (_ & _ & ER).
    destruct (assign (p_heap st) key x file (p_line st + 1) ro) as [h' [u|ex| |]] eqn:EA; try contradiction.
    + destruct A as (L' & NRO & GK & HK & OT & RO). rewrite ER in NRO. injection NRO as NRO. rewrite NRO.
      set (e1 := mkE (put key (Some (trim x)) (e_val e)) (put key (ro || false) (e_ro e)) (e_sym e)).
      assert (M1 : models (with_heap (with_line st (p_line st + 1)) h') e1).
      { constructor; auto; [|apply HM]. cbn [p_heap with_heap]. unfold e1. rewrite <- NRO.
        apply holds_assign with (h := p_heap st); auto. apply HM. }
      specialize (IH ns e1 (with_heap (with_line st (p_line st + 1)) h') ls WF HC M1 Htl).
      destruct (denote w file ns rest e1) as [e'|kk].
      * destruct IH as (m & st' & HL & HM' & HF). exists (S m), st'. split; [|split; auto].
        intro n. cbn [Nat.add]. rewrite STEP. apply HL.
      * destruct IH as (m & cur & x0 & st' & HL). exists (S m), cur, x0, st'. intro n. cbn [Nat.add]. rewrite STEP. apply HL.
    + destruct A as (-> & HRO & cur & ->). rewrite ER in HRO. injection HRO as HRO. rewrite HRO.
      exists 1, cur, x. eexists. intro n. cbn [Nat.add]. rewrite STEP. reflexivity.
  - destruct WF as (Hk & Hv & WF). cbn [denote write app].
    assert (Hvt : trim v = v) by (symmetry; apply is_trim_unique; apply Hv).
    set (ln := k ++ L " := " ++ v).
    pose proof (def_lhs k v (write rest ++ ls) (p_line st) Hk Hv) as Hl. fold ln in Hl.
    set (st1 := with_sym (with_line st (p_line st + 1)) (sset k (expand (refs w e) v) (p_sym st))).
    assert (STEP : forall n, loop (S n) w file st (ln :: write rest ++ ls) = loop n w file st1 (write rest ++ ls)).
    { intro n. rewrite (lhs_step n w file st (ln :: write rest ++ ls) false k (mkPos (L ":" ++ eqv v) (write rest ++ ls) (p_line st + 1))).
      2:{ unfold at_pos. rewrite Htl. exact Hl. }
      cbn [after].
      destruct (entry_step n w file false k (moved st (mkPos (L ":" ++ eqv v) (write rest ++ ls) (p_line st + 1))) (write rest ++ ls) false (Define v)
         (mkPos [] (write rest ++ ls) (p_line st + 1))) as (t4 & v4 & K & ->).
      { apply rf_none; [apply ceqv_lex; auto|discriminate]. }
      destruct t4; try discriminate K. injection K as ->.
      rewrite moved_moved. rewrite (models_expand w (moved st (mkPos [] (write rest ++ ls) (p_line st + 1))) e v) by (destruct HM; constructor; auto).
      unfold st1, moved, with_sym, with_tl, with_line. cbn. rewrite Htl. reflexivity. }
    assert (M1 : models st1 (mkE (e_val e) (e_ro e) (put k (Some (expand (refs w e) v)) (e_sym e)))).
    { destruct HM as [A B C]. constructor; auto. intro k2. cbn [p_sym with_sym st1 e_sym]. unfold put, st1. cbn [p_sym with_sym].
      destruct (str_eqb_spec k2 k) as [->|N]; [apply sfind_set_eq|]. rewrite sfind_set_ne by auto. apply C. }
    specialize (IH ns _ st1 ls WF HC M1 Htl).
    destruct (denote w file ns rest _) as [e'|kk].
    + destruct IH as (m & st' & HL & HM' & HF). exists (S m), st'. split; [|split; auto].
      intro n. cbn [Nat.add]. rewrite STEP. apply HL.
    + destruct IH as (m & cur & x0 & st' & HL). exists (S m), cur, x0, st'. intro n. cbn [Nat.add]. rewrite STEP. apply HL.
  - destruct WF as (Hn & WFb & WFr). cbn [denote write].
    set (st1 := with_ctx (with_line st (p_line st + 1)) (p_ctx st ++ nm ++ block_sep) (p_ctx st :: p_blocks st)).
    assert (ST1 : forall n ls', loop (S n) w file st ((L "block " ++ nm) :: ls') = loop n w file st1 ls').
    { intros n ls'. destruct (block_next nm ls' (p_line st) Hn) as [N1 N2].
      assert (N1' : next (at_pos st ((L "block " ++ nm) :: ls')) (Word (L "block")) (mkPos nm ls' (p_line st + 1))) by (unfold at_pos; rewrite Htl; exact N1).
      destruct (stmt_step n w file st _ _ _ N1') as (t0 & v0 & K & -> & ->). unfold stmt. cbn [text].
      change (str_eqb (L "block") (L "include")) with false. rewrite str_eqb_refl. cbv iota. unfold stmt_block.
      assert (N2' : next (at_pos (moved st (mkPos nm ls' (p_line st + 1))) ls') (Word nm) (mkPos [] ls' (p_line st + 1))) by exact N2.
      destruct (get_token_complete _ _ _ _ N2') as (t2 & v2 & G2 & K2). cbn [after] in *. rewrite G2.
      destruct t2; try discriminate K2. injection K2 as ->. 
      unfold st1, moved, flush_line, with_ctx, with_tl, with_line. cbn. rewrite Htl. reflexivity. }
    assert (C1 : ctx_rel (ns ++ [nm]) (p_ctx st1) (p_blocks st1)) by (constructor; exact HC).
    assert (M1 : models st1 e) by (destruct HM; constructor; auto).
    cbn [app]. rewrite <- app_assoc. cbn [app].
    specialize (IHb (ns ++ [nm]) e st1 (L "endblock" :: write rest ++ ls) WFb C1 M1 Htl).
    destruct (denote w file (ns ++ [nm]) body e) as [e1|kk].
    2:{ destruct IHb as (m & cur & x0 & st' & HL). exists (S m), cur, x0, st'. intro n. cbn [Nat.add]. rewrite ST1. apply HL. }
    destruct IHb as (m & st2 & HL2 & HM2 & HF2). destruct HF2 as (F1 & F2 & F3 & F4 & F5 & F6). cbn in F1, F2, F3, F4, F5.
    set (st3 := with_ctx (with_line st2 (p_line st2 + 1)) (p_ctx st) (p_blocks st)).
    assert (ST3 : forall n ls', loop (S n) w file st2 (L "endblock" :: ls') = loop n w file st3 ls').
    { intros n ls'. pose proof (endblock_next ls' (p_line st2)) as N1.
      assert (N1' : next (at_pos st2 (L "endblock" :: ls')) (Word (L "endblock")) (mkPos [] ls' (p_line st2 + 1))) by (unfold at_pos; rewrite F6; exact N1).
      destruct (stmt_step n w file st2 _ _ _ N1') as (t0 & v0 & K & -> & ->). unfold stmt. cbn [text].
      change (str_eqb (L "endblock") (L "include")) with false. change (str_eqb (L "endblock") (L "block")) with false.
      rewrite str_eqb_refl. cbv iota. unfold stmt_endblock. cbn [p_blocks flush_line moved with_tl with_line]. rewrite F2.
      unfold st3, moved, flush_line, with_ctx, with_tl, with_line. cbn. rewrite F6. reflexivity. }
    assert (M3 : models st3 e1) by (destruct HM2; constructor; auto).
    specialize (IHr ns e1 st3 ls WFr HC M3 F6).
    destruct (denote w file ns rest e1) as [e'|kk].
    + destruct IHr as (m3 & st' & HL & HM' & HF'). exists (S (m + S m3)), st'. split; [|split; auto].
      * intro n. cbn [Nat.add]. rewrite ST1, <- Nat.add_assoc. rewrite HL2. cbn [Nat.add]. rewrite ST3. apply HL.
      * destruct HF' as (A1 & A2 & A3 & A4 & A5 & A6). unfold same_frame. cbn in *. repeat split; congruence.
    + destruct IHr as (m3 & cur & x0 & st' & HL). exists (S (m + S m3)), cur, x0, st'.
      intro n. cbn [Nat.add]. rewrite ST1, <- Nat.add_assoc. rewrite HL2. cbn [Nat.add]. rewrite ST3. apply HL.
Qed.

Lemma write_nl d : well_formed d -> forall l, In l (write d) -> ~ In "010"%char l.
Proof.
  assert (W : forall k, is_word k -> ~ In "010"%char k) by (intros; apply word_no; auto).
  induction d as [|rel ro k v rest IH|k v rest IH|nm body IHb rest IHr]; intros WF l Hin.
  - destruct Hin.
  - destruct WF as ([Hk _] & (_ & _ & Hv) & WF). destruct Hin as [<-|Hin]; [|eauto]. intro X.
    apply in_app_or in X as [X|X]; [destruct rel; vm_compute in X; intuition discriminate|].
    apply in_app_or in X as [X|X]; [revert X; apply W; auto|]. apply in_app_or in X as [X|X]; [destruct ro; vm_compute in X; intuition discriminate|].
    apply in_app_or in X as [X|X]; [vm_compute in X; intuition discriminate|auto].
  - destruct WF as ([Hk _] & (_ & _ & Hv) & WF). destruct Hin as [<-|Hin]; [|eauto]. intro X.
    apply in_app_or in X as [X|X]; [revert X; apply W; auto|].
    apply in_app_or in X as [X|X]; [vm_compute in X; intuition discriminate|auto].
  - destruct WF as (Hn & WFb & WFr). destruct Hin as [<-|Hin].
    + intro X. apply in_app_or in X as [X|X]; [vm_compute in X; intuition discriminate|]. revert X. apply W; auto.
    + apply in_app_or in Hin as [Hin|[<-|Hin]]; eauto. vm_compute. intuition discriminate.
Qed.

Lemma doc_parse w file d : well_formed d -> w_fs w file = File (file_text (write d)) ->
  match denote w file [] d empty_env with
  | inl e => exists n0 st, holds (p_heap st) e /\ forall n, n0 <= n -> parse n w file = PDone st
  | inr k => exists n0 cur x st, forall n, n0 <= n -> parse n w file = PThrow (CfgExn (SetOnReadOnly k cur x)) st
  end.
Proof.
  intros WF Hf. unfold parse, process_main. rewrite Hf, (lines_of_text _ (write_nl d WF)).
  set (st0 := with_incs _ _ _).
  assert (M0 : models st0 empty_env).
  { constructor; [exact live_fresh| |reflexivity]. intro k. repeat split. }
  pose proof (doc_run w file d [] empty_env st0 [] WF cr_nil M0 eq_refl) as H. rewrite app_nil_r in H.
  destruct (denote w file [] d empty_env) as [e|k].
  - destruct H as (m & st' & HL & HM & (F1 & F2 & F3 & F4 & F5 & F6)).
    exists (m + 1). eexists. split.
    2:{ intros n Hn. replace n with (m + S (n - m - 1)) by lia. rewrite HL. cbn [loop]. unfold get_token. rewrite F6. cbn [get_line].
        unfold on_eof. cbn [p_count with_incs with_line]. rewrite F4. cbn [st0 p_count with_incs fresh Nat.pred].
        cbn [p_blocks with_incs with_line]. rewrite F2. cbn [st0 p_blocks with_incs with_line with_tl fresh p_err]. rewrite F5. reflexivity. }
    exact (md_holds _ _ HM).
  - destruct H as (m & cur & x & st' & HL). exists m, cur, x, st'. intros n Hn. replace n with (m + (n - m)) by lia. apply HL.
Qed.
