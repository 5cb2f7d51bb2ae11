(** ParserProps.v -- property theorems C15..C20 about configuration files. *)
From Verif Require Import Base ConfigModel ConfigSpec ConfigProofs ConfigProofs2 ConfigProofs3 ConfigProofs4
  ExpandModel ExpandSpec ExpandProofs ParserModel ParserSpec ParserProofs ParserProofs2 ParserProofs3 ParserProofs4 ParserProofs5
  ParserProofs6 ParserProofs7 DocSpec DocProofs.

(** A concrete world for the examples. *)
Definition nl : str := ["010"%char].
Definition main_lines : list str :=
  [ L "# a comment"; L "var := abc"; L "block one"; L "  key[RO] = x $LOCAL{var} $ENV{HOME}$NOPE{q}  # c";
    L "  include /inc.cfg"; L "endblock"; []; L "relativepath dat = img.png"; L "dat2 = $CONFIG{one:sub:val}" ].
Definition inc_lines : list str := [ L "block sub"; L "val = 7"; L "endblock" ].
Definition demo_fs (p : str) : node :=
  if str_eqb p (L "/main.cfg") then File (file_text main_lines)
  else if str_eqb p (L "/inc.cfg") then File (file_text inc_lines)
  else if str_eqb p (L "/bad.cfg") then File (L "endblock")
  else if str_eqb p (L "/junk.cfg") then File (L "!!! junk" ++ nl ++ L "aaa = 1" ++ nl)
  else if str_eqb p (L "/again.cfg") then File (L "kkk [RO] = 1" ++ nl ++ L "kkk = 2" ++ nl)
  else if str_eqb p (L "/odd.cfg") then File (L "= block" ++ nl ++ L "nme" ++ nl ++ L "key = v" ++ nl ++ L "= endblock" ++ nl)
  else if str_eqb p (L "/self.cfg") then File (file_text [L "include /self.cfg"; L "aaa = 1"])
  else if str_eqb p (L "/") then Dir else NoFile.
Definition demo_w : world :=
  mkW demo_fs (fun n => if str_eqb n (L "HOME") then Some (L "/root") else None) (fun _ => [])
      (fun p => is_prefix (L "/") p) (fun _ => L "/") (fun p => p) [] [].
Definition result_heap (r : presult) : heap := match r with PDone st | PThrow _ st => p_heap st | _ => [] end.

(** C15: expansion is exactly the one-pass left-to-right replacement relation,
    for every token table; it always has a result, and text without '$' is kept. *)
Theorem C15_expand_is_one_pass tt s out : expand tt s = out <-> expands tt s out.
Proof. exact (expand_spec tt s out). Qed.
Print Assumptions C15_expand_is_one_pass.
Theorem C15_expand_never_out_of_fuel tt s : expand_f (S (length s)) tt s <> None.
Proof. exact (expand_total tt s). Qed.
Theorem C15_expand_plain tt s : ~ In "$"%char s -> expand tt s = s.
Proof. exact (expand_plain tt s). Qed.
Print Assumptions C15_expand_plain.
Example C15_demo :
  expand (fun ty => if str_eqb ty (L "A") then Some (fun n => L "$A{" ++ n) else None) (L "1$A{x}}$A{y}$B{z}$A{") =
  L "1$A{x}$A{y$B{z}$A{".
Proof. vm_compute. reflexivity. Qed.

(** C16: parsing the text of any well-formed document gives what the document
    denotes: the flattened assignments in order, or the exception for the first
    assignment to a key already marked read-only. *)
Theorem C16_documents_mean_their_tree w file d :
  well_formed d -> w_fs w file = File (file_text (write d)) ->
  match denote w file [] d empty_env with
  | inl e => exists n0 st, holds (p_heap st) e /\ forall n, n0 <= n -> parse n w file = PDone st
  | inr k => exists n0 cur x st, forall n, n0 <= n -> parse n w file = PThrow (CfgExn (SetOnReadOnly k cur x)) st
  end.
Proof. exact (doc_parse w file d). Qed.
Print Assumptions C16_documents_mean_their_tree.
Lemma word3 a b c : is_alpha a = true -> word_char b = true -> word_char c = true -> c <> ":"%char -> is_word [a; b; c].
Proof.
  intros. exists a, [b], c. repeat split; auto; try discriminate.
  intros x [<-|[<-|[]]]; apply word_char_spec; auto.
Qed.
Example C16_nonvacuous : let d := Def (L "var") (L "abc") (Block (L "one")
    (Entry false true (L "key") (L "x $LOCAL{var}") (Block (L "two") (Entry true false (L "k2k") [] Nil) Nil))
    (Entry false false (L "key") (L "= 5") Nil)) in
  well_formed d /\
  exists e, denote demo_w (L "/main.cfg") [] d empty_env = inl e /\
    e_val e (L "one:key") = Some (L "x abc") /\ e_ro e (L "one:key") = true /\ e_val e (L "key") = Some (L "= 5") /\
    e_val e (L "one:two:k2k") = Some (L "//").
Proof.
  cbv zeta. split.
  - assert (P : forall v, trim v = v -> forallb (fun c => negb (Ascii.eqb c "#") && negb (Ascii.eqb c "010")) v = true -> plain_value v).
    { intros v Hv Hb. split; [rewrite <- Hv at 2; apply trim_is_trim|]. rewrite forallb_forall in Hb.
      split; intro Hin; apply Hb in Hin; discriminate. }
    assert (K : forall a b c, is_alpha a = true -> word_char b = true -> word_char c = true -> c <> ":"%char -> plain_key [a; b; c]).
    { intros. split; [apply word3; auto|]. intros [E|[E|[E|[E|[]]]]]; discriminate E. }
    repeat split; try (apply P; reflexivity); try (apply K; (reflexivity || discriminate)); try (apply word3; (reflexivity || discriminate)).
  - eexists. split; [vm_compute; reflexivity|]. repeat split.
Qed.
Example C16_ro_conflict :
  denote demo_w (L "/m") [] (Entry false true (L "kkk") (L "1") (Entry false false (L "kkk") (L "2") Nil)) empty_env = inr (L "kkk").
Proof. vm_compute. reflexivity. Qed.

(** C17: blank lines, comments and outer blanks never change the outcome:
    neither keys, values, descriptions and read-only marks, nor the exception. *)
Theorem C17_blanks_and_comments_irrelevant w1 w2 n file :
  same_texts w1 w2 -> same_outcome (parse n w1 file) (parse n w2 file).
Proof. intro H. apply simr_outcome. exact (parse_sim w1 w2 H n file). Qed.
Print Assumptions C17_blanks_and_comments_irrelevant.
Definition bare_lines : list str :=
  [ L "var := abc"; L "block one"; L "key[RO] = x $LOCAL{var} $ENV{HOME}$NOPE{q}";
    L "include /inc.cfg"; L "endblock"; L "relativepath dat = img.png"; []; L "#"; L "   dat2 = $CONFIG{one:sub:val}#x" ].
Lemma reads_clean ls : reads ls (filter (fun l => match l with [] => false | _ => true end) (map clean ls)).
Proof.
  induction ls as [|l ls IH]; [constructor|]. cbn [map filter].
  destruct (clean l) eqn:E.
  - apply reads_blank; auto. apply says_clean. auto.
  - apply reads_text; auto; [apply says_clean; auto|discriminate].
Qed.
Example C17_nonvacuous : exists w2, same_texts demo_w w2 /\ w_fs w2 (L "/main.cfg") <> w_fs demo_w (L "/main.cfg") /\
  exists st, parse 50 w2 (L "/main.cfg") = PDone st.
Proof.
  exists (mkW (fun p => if str_eqb p (L "/main.cfg") then File (file_text bare_lines) else demo_fs p)
    (w_env demo_w) (w_sysenv demo_w) (w_full demo_w) (w_dirname demo_w) (w_collapse demo_w) [] []).
  split; [|split; [vm_compute; intro E; discriminate E|eexists; vm_compute; reflexivity]].
  split; [|repeat split].
  intro p. cbn [w_fs demo_w]. destruct (str_eqb p (L "/main.cfg")) eqn:E.
  - unfold demo_fs. rewrite E. eexists. split; [|apply reads_clean].
    assert (X : filter (fun l => match l with [] => false | _ => true end) (map clean (lines_of (file_text bare_lines))) =
            filter (fun l => match l with [] => false | _ => true end) (map clean (lines_of (file_text main_lines)))) by (vm_compute; reflexivity).
    rewrite X. apply reads_clean.
  - destruct (demo_fs p); auto. eexists. split; apply reads_clean.
Qed.

(** C18: the parser returns normally exactly for well-formed files, with what
    they define; otherwise it throws; it never reaches undefined behaviour of
    the configuration block. *)
Theorem C18_accepts_only_well_formed n w file :
  match parse n w file with
  | PDone st => exists s, defines w file s /\ p_heap st = s_cfg s
  | PThrow _ _ => forall s, ~ defines w file s
  | PStuck => False
  | PFuel => True
  end.
Proof. exact (parse_verdict n w file). Qed.
Print Assumptions C18_accepts_only_well_formed.
Theorem C18_accepts_all_well_formed w file s : defines w file s ->
  exists n st, p_heap st = s_cfg s /\ forall m, n <= m -> parse m w file = PDone st.
Proof. exact (parse_complete w file s). Qed.
Print Assumptions C18_accepts_all_well_formed.
Example C18_nonvacuous :
  (exists st, parse 50 demo_w (L "/main.cfg") = PDone st /\
     get_string (p_heap st) 0 (L "one:key") = Ok (L "x abc /root$NOPE{q}") /\
     get_string (p_heap st) 0 (L "one:sub:val") = Ok (L "7") /\ get_string (p_heap st) 0 (L "dat2") = Ok (L "7") /\
     get_string (p_heap st) 0 (L "dat") = Ok (L "//img.png")) /\
  (exists st, parse 50 demo_w (L "/bad.cfg") = PThrow (NotParsed (L "/bad.cfg")) st) /\
  (exists st, parse 50 demo_w (L "/junk.cfg") = PThrow (NotParsed (L "/junk.cfg")) st).
Proof.
  split; [|split; eexists; vm_compute; reflexivity].
  eexists. split; [vm_compute; reflexivity|]. repeat split; vm_compute; reflexivity.
Qed.

(** C19: parsing terminates whenever the include relation below the file is
    well founded (in particular when nothing is included), and the result does
    not depend on the loop bound; a file that starts by including itself never
    finishes. *)
Theorem C19_terminates w file : Acc (fun g f => includes w f g) file ->
  exists n0 r, r <> PFuel /\ forall n, n0 <= n -> parse n w file = r.
Proof. exact (parse_total w file). Qed.
Print Assumptions C19_terminates.
Corollary C19_no_includes w file : (forall g, ~ includes w file g) ->
  exists n0 r, r <> PFuel /\ forall n, n0 <= n -> parse n w file = r.
Proof. intro H. apply C19_terminates. constructor. intros g Hg. destruct (H g Hg). Qed.
Theorem C19_self_include_never_finishes w f rest :
  w_full w f = true -> plain_value f -> f <> [] -> ~ In "$"%char f ->
  w_fs w f = File (file_text ((L "include " ++ f) :: rest)) -> forall n, parse n w f = PFuel.
Proof. exact (self_include w f rest). Qed.
Print Assumptions C19_self_include_never_finishes.
Example C19_self_nonvacuous : w_full demo_w (L "/self.cfg") = true /\
  w_fs demo_w (L "/self.cfg") = File (file_text ((L "include " ++ L "/self.cfg") :: [L "aaa = 1"])).
Proof. split; vm_compute; reflexivity. Qed.

(** C20: after a successful parse the configuration is described by the list
    of assignments made, in order: a key is read-only iff some assignment of it
    carried [RO], has a value iff it was assigned, its value is the trimmed
    value of its last assignment, and nothing after an [RO] assignment of a key
    assigns that key. *)
Theorem C20_read_only_entries n w file st : parse n w file = PDone st ->
  exists s, defines w file s /\ p_heap st = s_cfg s /\ forall k,
    (is_read_only (p_heap st) 0 k = Ok true <-> exists v, In (k, v, true) (s_log s)) /\
    (has_value (p_heap st) 0 k = Ok true <-> exists v ro, In (k, v, ro) (s_log s)) /\
    (forall l1 v ro l2, s_log s = l1 ++ (k, v, ro) :: l2 -> (forall v' ro', ~ In (k, v', ro') l2) ->
       exists t, is_trim v t /\ get_string (p_heap st) 0 k = Ok t) /\
    (forall l1 v l2, s_log s = l1 ++ (k, v, true) :: l2 -> forall v' ro', ~ In (k, v', ro') l2).
Proof.
  intro H. destruct (parse_sound _ _ _ _ H) as (s & D & E). exists s. split; auto. split; auto.
  destruct D as (lines & _ & G & _). apply good_log in G as [(_ & A & B & C & D) _]; [|apply log_init].
  rewrite E. intro k. split; [apply A|]. split; [apply B|]. split; [|intros; eapply D; eauto].
  intros l1 v ro l2 E1 E2. exists (trim v). split; [apply trim_is_trim|]. eapply C; eauto.
Qed.
Print Assumptions C20_read_only_entries.
Example C20_nonvacuous :
  (exists st, parse 50 demo_w (L "/main.cfg") = PDone st /\ is_read_only (p_heap st) 0 (L "one:key") = Ok true /\
     is_read_only (p_heap st) 0 (L "dat") = Ok false) /\
  (exists st, parse 50 demo_w (L "/again.cfg") = PThrow (CfgExn (SetOnReadOnly (L "kkk") (L "1") (L "2"))) st).
Proof.
  split; [|eexists; vm_compute; reflexivity].
  eexists. split; [vm_compute; reflexivity|]. split; vm_compute; reflexivity.
Qed.

(** C59: reuse of a parser object.  Once a parse failed with the error flag
    set at top level, every later parse fails; but after an exception thrown
    inside a file, a later parse of a malformed file returns normally. *)
Theorem C59_error_latches n w file st : p_err st = true -> p_count st = 0 ->
  forall st', process_main n w file st <> PDone st'.
Proof. exact (error_latches n w file st). Qed.
Print Assumptions C59_error_latches.
Example C59_nonvacuous : exists e st, parse 50 demo_w (L "/junk.cfg") = PThrow e st /\ p_err st = true /\ p_count st = 0.
Proof. eexists. eexists. split; [vm_compute; reflexivity|]. split; reflexivity. Qed.
Theorem C59_reuse_after_exception_refuted : exists w f1 f2 n e st st2,
  parse n w f1 = PThrow e st /\ process_main n w f2 st = PDone st2 /\ forall s, ~ defines w f2 s.
Proof.
  exists demo_w, (L "/bad.cfg"), (L "/junk.cfg"), 50. do 3 eexists. split; [vm_compute; reflexivity|].
  split; [vm_compute; reflexivity|]. intros s D.
  pose proof (C18_accepts_only_well_formed 50 demo_w (L "/junk.cfg")) as X.
  assert (E : exists e st, parse 50 demo_w (L "/junk.cfg") = PThrow e st) by (do 2 eexists; vm_compute; reflexivity).
  destruct E as (e & st & E). rewrite E in X. exact (X s D).
Qed.
Print Assumptions C59_reuse_after_exception_refuted.

(** C60: directives are recognised only as words -- false: the text of any
    token is compared, so "= block" opens a block. *)
Theorem C60_directives_are_words_refuted : exists w file n st,
  parse n w file = PDone st /\
  w_fs w file = File (L "= block" ++ nl ++ L "nme" ++ nl ++ L "key = v" ++ nl ++ L "= endblock" ++ nl) /\
  get_string (p_heap st) 0 (L "nme:key") = Ok (L "v").
Proof.
  exists demo_w, (L "/odd.cfg"), 50. eexists. split; [vm_compute; reflexivity|]. split; vm_compute; reflexivity.
Qed.
Print Assumptions C60_directives_are_words_refuted.

(** C61: a relative include name is looked up in $CMAKE_FILE_PATH/$PATH before
    the parser's own search path and the directories of the including files. *)
Definition in_dir (d n q : str) : Prop := (exists d', d = d' ++ L "/" /\ q = d ++ n) \/ ((forall d', d <> d' ++ L "/") /\ q = d ++ L "/" ++ n).
Lemma in_dir_slash d n q : in_dir d n q -> q = slash d ++ n.
Proof.
  unfold slash. intros [(d' & -> & ->)|[H ->]].
  - rewrite rev_app_distr. reflexivity.
  - destruct d as [|c d _] using rev_ind; [reflexivity|]. rewrite rev_app_distr. cbn [rev app].
    assert (N : c <> "/"%char) by (intros ->; apply (H d); reflexivity). destruct c as [[] [] [] [] [] [] [] []]; try (rewrite <- !app_assoc; reflexivity). elim N. reflexivity.
Qed.
Theorem C61_include_lookup w incs name :
  (w_full w name = true -> resolve_file_name w incs name = name) /\
  (w_full w name = false -> forall before p after,
     w_syspath w ++ w_search w = before ++ p :: after ->
     (forall d q, In d before -> in_dir d name q -> w_fs w q = NoFile) ->
     forall q c, in_dir p name q -> w_fs w q = File c -> w_collapse w q <> [] ->
     resolve_file_name w incs name = w_collapse w q).
Proof.
  split; intro Hf; unfold resolve_file_name; rewrite Hf; auto.
  assert (X0 : forall d, exists q, in_dir d name q).
  { intro d. destruct d as [|x d _] using rev_ind; [exists (L "/" ++ name); right; split; [intros [|? ?]; discriminate|reflexivity]|]. destruct (Ascii.eqb_spec x "/"%char) as [->|N]; [eexists; left; exists d; split; reflexivity|].
    eexists. right. split; [|reflexivity]. intros d' Q. apply app_inj_tail in Q as [_ Q]. apply N. exact Q. }
  intros before p after E Hb0 q c I Hc Hcol. apply in_dir_slash in I as ->.
  assert (Hb : forall q, In q before -> w_fs w (slash q ++ name) = NoFile).
  { intros d J. destruct (X0 d) as (q & Q). pose proof (in_dir_slash _ _ _ Q) as ->. exact (Hb0 d _ J Q). }
  assert (Hne : slash p ++ name <> []). { unfold slash. destruct p as [|x p _] using rev_ind; [discriminate|]. rewrite rev_app_distr. cbn [rev app]. destruct x as [[] [] [] [] [] [] [] []]; rewrite <- ?app_assoc; destruct p; discriminate. }
  assert (X : find_file w name (w_search w) = w_collapse w (slash p ++ name)).
  { unfold find_file, find_name. rewrite E.
    assert (Y : find (fun p0 => file_exists w (slash p0 ++ name)) (before ++ p :: after) = Some p).
    { clear E Hb0. induction before as [|q before IH]; cbn [app find].
      - unfold file_exists. rewrite Hc. reflexivity.
      - unfold file_exists at 1. rewrite (Hb q) by (left; auto). apply IH. intros; apply Hb; right; auto. }
    rewrite Y. unfold is_dir. destruct (slash p ++ name) eqn:E1; [congruence|]. rewrite Hc. reflexivity. }
  rewrite X. destruct (w_collapse w (slash p ++ name)); [congruence|reflexivity].
Qed.
Print Assumptions C61_include_lookup.
