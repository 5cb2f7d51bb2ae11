(** GlobProofs.v -- the regular expression of a glob pattern. *)
From Coq Require Import List Ascii Bool Arith Lia.
Import ListNotations.
From Verif Require Import Base RegexModel RegexSpec RegexAst RegexGrammar2 RegexWays RegexProps RegexProps2 RegexSize GlobModel GlobSpec.

Definition not_slash : re := Cls true [("/", "/")]%char.
Definition item_re (i : gitem) (cs : list (ascii * ascii)) : re :=
  match i with GStar => Star not_slash | GOne => not_slash | GSet neg _ => Cls neg cs | GChr c => Chr c end.
(** The ranges of a set with its backslashes doubled. *)
Inductive same_set : list (ascii * ascii) -> list (ascii * ascii) -> Prop := ss cs cs' : (forall c, class_in cs c <-> class_in cs' c) -> ranges_size cs' <= 2 * ranges_size cs -> same_set cs cs'.
Inductive items_re : list gitem -> re -> Prop :=
| ir_end : items_re [] (Seq Eol Eps)
| ir_cons i l r cs' : match i with GSet _ cs => same_set cs cs' | _ => True end -> items_re l r -> items_re (i :: l) (Seq (item_re i cs') r).

Lemma in_cons : forall p q cs c, class_in ((p, q) :: cs) c <-> upto p q c \/ class_in cs c.
Proof. intros p q cs c. split; [intros (lo & hi & [E|I0] & U); [injection E as <- <-; auto|right; exists lo, hi; auto]|intros [U|(lo & hi & I0 & U)]; [exists p, q|exists lo, hi]; cbn; auto]. Qed.
Lemma text_double : forall p t cs, class_text p t cs -> exists cs', class_text p (double_backslashes t) cs' /\ (forall c, class_in cs c <-> class_in cs' c) /\ ranges_size cs' <= 2 * ranges_size cs.
Proof.
  intros p t cs H. induction H as [p|p|p q t cs N LE H IH|p q t cs N1 N2 H IH].
  - exists []. split; [constructor|]. split; [reflexivity|cbn; lia].
  - exists [("-", "-")%char]. split; [constructor|]. split; [reflexivity|cbn; lia].
  - destruct IH as (cs' & H1 & H2 & H3). destruct (Ascii.eqb q "\") eqn:Q.
    + exists ((p, q) :: (q, q) :: cs'). apply Ascii.eqb_eq in Q. subst q. split; [|split].
      * change (double_backslashes ("-"%char :: "\"%char :: t)) with ("-"%char :: "\"%char :: "\"%char :: double_backslashes t). apply ct_range; [discriminate|exact LE|]. apply ct_char; [discriminate|discriminate|exact H1].
      * intro c. rewrite !in_cons, H2. unfold upto. intuition lia.
      * cbn [ranges_size]. lia.
    + exists ((p, q) :: cs'). split; [|split].
      * change (double_backslashes ("-"%char :: q :: t)) with ("-"%char :: (if Ascii.eqb q "\" then [q; q] else [q]) ++ double_backslashes t). rewrite Q. cbn [app]. now apply ct_range.
      * intro c. now rewrite !in_cons, H2.
      * cbn [ranges_size]. lia.
  - destruct IH as (cs' & H1 & H2 & H3). change (double_backslashes (q :: t)) with ((if Ascii.eqb q "\" then [q; q] else [q]) ++ double_backslashes t). destruct (Ascii.eqb q "\") eqn:Q.
    + exists ((q, q) :: (q, q) :: cs'). cbn [app]. split; [|split].
      * now repeat apply ct_char.
      * intro c. rewrite !in_cons, H2. tauto.
      * cbn [ranges_size]. lia.
    + exists ((q, q) :: cs'). split; [|split].
      * now apply ct_char.
      * intro c. now rewrite !in_cons, H2.
      * cbn [ranges_size]. lia.
Qed.
Lemma body_double : forall b cs, class_body b cs -> exists cs', class_body (double_backslashes b) cs' /\ same_set cs cs'.
Proof.
  intros b cs H. inversion H as [p t cs0 T E1 E2]; subst. destruct (text_double p t cs0 T) as (cs' & H1 & H2 & H3).
  change (double_backslashes (p :: t)) with ((if Ascii.eqb p "\" then [p; p] else [p]) ++ double_backslashes t). destruct (Ascii.eqb p "\") eqn:Q.
  - exists ((p, p) :: (p, p) :: cs'). apply Ascii.eqb_eq in Q. subst p. split; [cbn [app]; constructor; now apply ct_char|]. split.
    + intro c. rewrite !in_cons, H2. tauto.
    + cbn [ranges_size]. lia.
  - exists ((p, p) :: cs'). split; [cbn [app]; now constructor|]. split.
    + intro c. now rewrite !in_cons, H2.
    + cbn [ranges_size]. lia.
Qed.
Lemma convert_skip : forall b t, convert (length b) (b ++ t) = convert 0 t.
Proof. induction b as [|c b IH]; intro t; [destruct t; reflexivity|]. cbn [length app convert]. apply IH. Qed.
Lemma text_no_close : forall p t cs, class_text p t cs -> ~ In "]"%char t.
Proof.
  intros p t cs H. induction H as [p|p|p q t cs N LE H IH|p q t cs N1 N2 H IH]; cbn; intro K.
  - exact K.
  - change (In "]"%char ["-"%char]) in K. destruct K as [K|[]]. discriminate.
  - destruct K as [K|[K|K]]; [discriminate|congruence|auto].
  - destruct K as [K|K]; [congruence|auto].
Qed.
Lemma tw_close : forall t r, ~ In "]"%char t -> take_while (fun c => negb (Ascii.eqb c "]")) (t ++ "]"%char :: r) = t.
Proof. intros t r. induction t as [|c t IH]; intro N; [reflexivity|]. cbn [app take_while]. destruct (Ascii.eqb_spec c "]") as [->|]; [now elim N; left|]. cbn [negb]. f_equal. apply IH. intro K. apply N. now right. Qed.
(** The scan for the closing bracket finds a bracket expression. *)
Lemma bracket_found : forall m b t, (m = [] /\ (forall c r, b = c :: r -> c <> "!"%char /\ c <> "^"%char)) \/ m = ["!"%char] \/ m = ["^"%char] ->
  (exists p q, b = p :: q /\ ~ In "]"%char q) -> bracket (m ++ b ++ "]"%char :: t) = Some (m ++ b).
Proof.
  intros m b t M (p & q & -> & N). unfold bracket.
  assert (E : take_mark (m ++ (p :: q) ++ "]"%char :: t) = (m, (p :: q) ++ "]"%char :: t)).
  { destruct M as [[-> M]|[-> | ->]]; [|reflexivity|reflexivity]. cbn [app take_mark]. destruct (M p q eq_refl) as [M1 M2]. destruct (Ascii.eqb_spec p "!"); [congruence|]. destruct (Ascii.eqb_spec p "^"); [congruence|]. reflexivity. }
  rewrite E. cbn [app take_close]. destruct (Ascii.eqb_spec p "]") as [->|NP].
  - rewrite tw_close by exact N. rewrite app_length. cbn [length]. replace (length q <? length q + S (length t)) with true by (symmetry; apply Nat.ltb_lt; lia). reflexivity.
  - cbn [take_while]. destruct (Ascii.eqb_spec p "]"); [congruence|]. cbn [negb]. rewrite tw_close by exact N. cbn [length]. rewrite app_length. cbn [length].
    replace (S (length q) <? S (length q + S (length t))) with true by (symmetry; apply Nat.ltb_lt; lia). reflexivity.
Qed.
Lemma tw_short : forall f (r : str), length (take_while f r) < length r -> exists c q, r = take_while f r ++ c :: q /\ f c = false.
Proof. intros f r. induction r as [|c r IH]; cbn [take_while]; [cbn; lia|]. destruct (f c) eqn:E; cbn [length]; intro H; [|exists c, r; auto]. destruct IH as (d & q & E1 & E2); [lia|]. exists d, q. split; [cbn; congruence|exact E2]. Qed.
Lemma bracket_closed : forall t b, bracket t = Some b -> exists m b1 r, b = m ++ b1 /\ t = m ++ b1 ++ "]"%char :: r /\ b1 <> [] /\ unmarked t = b1 ++ "]"%char :: r /\ ~ In "]"%char (tl b1) /\ (m = [] /\ unmarked t = t \/ m = ["!"%char] \/ m = ["^"%char]).
Proof.
  intros t b. unfold bracket.
  assert (C : exists m, t = m ++ unmarked t /\ take_mark t = (m, unmarked t) /\ (m = [] /\ unmarked t = t \/ m = ["!"%char] \/ m = ["^"%char])).
  { destruct t as [|c t]; [exists []; auto|]. cbn [unmarked take_mark]. destruct (Ascii.eqb_spec c "!") as [->|]; [exists ["!"%char]; auto|]. destruct (Ascii.eqb_spec c "^") as [->|]; [exists ["^"%char]; auto|]. exists []. auto. }
  destruct C as (m & E1 & E2 & M). rewrite E2. set (u := unmarked t) in *. clearbody u.
  destruct u as [|c u]; [cbn; discriminate|]. cbn [take_close]. destruct (Ascii.eqb_spec c "]") as [->|NC].
  - destruct (_ <? _) eqn:Q; [|discriminate]. intro H. injection H as <-. apply Nat.ltb_lt in Q. destruct (tw_short _ _ Q) as (d & q & E3 & E4). apply negb_false_iff, Ascii.eqb_eq in E4. subst d.
    set (tw := take_while (fun c => negb (Ascii.eqb c "]")) u) in *. exists m, ("]"%char :: tw), q. split; [reflexivity|]. split; [rewrite E1; cbn [app]; congruence|]. split; [discriminate|]. split; [cbn [app]; congruence|]. split; [|exact M].
    cbn [tl]. intro K. assert (FF := Base.take_while_forall (fun c => negb (Ascii.eqb c "]")) u). fold tw in FF. rewrite forallb_forall in FF. apply FF in K. discriminate.
  - set (W := take_while (fun c => negb (Ascii.eqb c "]")) (c :: u)). destruct (_ <? _) eqn:Q; [|discriminate]. intro H. assert (b = m ++ [] ++ W) by congruence. clear H. subst b. unfold W in *. clear W. apply Nat.ltb_lt in Q. destruct (tw_short _ _ Q) as (d & q & E3 & E4). apply negb_false_iff, Ascii.eqb_eq in E4. subst d.
    assert (FF := Base.take_while_forall (fun c => negb (Ascii.eqb c "]")) (c :: u)).
    assert (TW : exists tw, take_while (fun c => negb (Ascii.eqb c "]")) (c :: u) = c :: tw) by (cbn [take_while]; destruct (Ascii.eqb_spec c "]"); [congruence|eexists; reflexivity]). destruct TW as [tw TW]. rewrite TW in *.
    exists m, (c :: tw), q. split; [reflexivity|]. split; [rewrite E1; congruence|]. split; [discriminate|]. split; [congruence|]. split; [|exact M].
    cbn [tl]. intro K. rewrite forallb_forall in FF. specialize (FF _ (or_intror K)). discriminate.
Qed.
Lemma bracket_none : forall t, ~ closed t -> bracket t = None.
Proof. intros t N. destruct (bracket t) as [b|] eqn:E; [|reflexivity]. exfalso. apply N. destruct (bracket_closed t b E) as (m & b1 & r & _ & _ & H1 & H2 & _). exists b1, r. auto. Qed.
Lemma alnum_plain : forall c, (is_alpha c || is_digit c)%bool = true -> ~ special c.
Proof. intros c A K. apply special_iff in K. destruct c as [[] [] [] [] [] [] [] []]; discriminate. Qed.
Lemma slash_legal : forall n, g_atom n (L "[^/]") not_slash n.
Proof. intro n. apply (gt_not n ["/"%char]). constructor. constructor. Qed.
Lemma lit_legal : forall n c t r, g_branch n t r n -> g_branch n ((if (is_alpha c || is_digit c)%bool then [c] else ["\"%char; c]) ++ t) (Seq (Chr c) r) n.
Proof. intros n c t r H. apply gb_cons with n; [|exact H]. apply gp_atom. destruct (is_alpha c || is_digit c)%bool eqn:A; [apply gt_chr; now apply alnum_plain|apply gt_esc]. Qed.
Lemma body_nonempty : forall b cs, class_body b cs -> exists p q, b = p :: q /\ ~ In "]"%char q.
Proof. intros b cs H. inversion H; subst. eexists. eexists. split; [reflexivity|]. eapply text_no_close. eassumption. Qed.
Lemma bracket_regex_set : forall b, (forall c r, b = c :: r -> c <> "!"%char /\ c <> "^"%char) -> bracket_regex b = L "[" ++ double_backslashes b ++ L "]".
Proof. intros [|c b] H; [reflexivity|]. unfold bracket_regex. destruct (H c b eq_refl) as [H1 _]. destruct (Ascii.eqb_spec c "!"); [congruence|reflexivity]. Qed.
Lemma bracket_regex_not : forall m b, m = "!"%char \/ m = "^"%char -> bracket_regex (m :: b) = L "[^" ++ double_backslashes b ++ L "]".
Proof. intros m b [-> | ->]; reflexivity. Qed.
Lemma glob_legal : forall p l, glob_text p l -> forall n, exists r, items_re l r /\ g_branch n (convert 0 p ++ L "$") r n.
Proof.
  intros p l H n. induction H as [|t l H IH|t l H IH|b cs t l B NM H IH|m b cs t l M B H IH|t l NC H IH|c t l N1 N2 N3 H IH]; [|destruct IH as (r & IR & G)..].
  - exists (Seq Eol Eps). split; [constructor|]. apply (gb_cons n (L "$") Eol n [] Eps n); [apply gp_atom; constructor|constructor].
  - exists (Seq (Star not_slash) r). split; [exact (ir_cons GStar l r [] I IR)|]. change (convert 0 ("*"%char :: t) ++ L "$") with ((L "[^/]" ++ L "*") ++ (convert 0 t ++ L "$")). apply gb_cons with n; [|exact G]. apply gp_star; [apply slash_legal|]. intro K. inversion K.
  - exists (Seq not_slash r). split; [exact (ir_cons GOne l r [] I IR)|]. change (convert 0 ("?"%char :: t) ++ L "$") with (L "[^/]" ++ (convert 0 t ++ L "$")). apply gb_cons with n; [|exact G]. apply gp_atom, slash_legal.
  - destruct (body_double b cs B) as (cs' & B' & SS). exists (Seq (Cls false cs') r). split; [exact (ir_cons (GSet false cs) l r cs' SS IR)|].
    change (L "[" ++ b ++ L "]" ++ t) with ("["%char :: ([] ++ b ++ "]"%char :: t)). cbn [convert]. change (Ascii.eqb "[" "*") with false. change (Ascii.eqb "[" "?") with false. change (Ascii.eqb "[" "[") with true. cbn iota.
    rewrite (bracket_found [] b t) by (auto; eapply body_nonempty; eauto). cbn [app]. rewrite (bracket_regex_set b NM).
    assert (CS : convert (S (length b)) (b ++ "]"%char :: t) = convert 0 t) by (replace (S (length b)) with (length (b ++ ["]"%char])) by (rewrite app_length; cbn; lia); change (b ++ "]"%char :: t) with (b ++ ["]"%char] ++ t); rewrite app_assoc; apply convert_skip). rewrite CS, <- app_assoc.
    apply gb_cons with n; [|exact G]. apply gp_atom, gt_cls; [exact B'|]. intros q q' E. destruct b as [|c b]; [discriminate|]. destruct (NM c b eq_refl) as [_ X]. change (double_backslashes (c :: b)) with ((if Ascii.eqb c "\" then [c; c] else [c]) ++ double_backslashes b) in E. destruct (Ascii.eqb c "\"); cbn [app] in E; congruence.
  - destruct (body_double b cs B) as (cs' & B' & SS). exists (Seq (Cls true cs') r). split; [exact (ir_cons (GSet true cs) l r cs' SS IR)|].
    change (L "[" ++ [m] ++ b ++ L "]" ++ t) with ("["%char :: ([m] ++ b ++ "]"%char :: t)). cbn [convert]. change (Ascii.eqb "[" "*") with false. change (Ascii.eqb "[" "?") with false. change (Ascii.eqb "[" "[") with true. cbn iota.
    rewrite (bracket_found [m] b t) by (try (destruct M as [-> | ->]; auto); eapply body_nonempty; eauto). cbn [app]. rewrite (bracket_regex_not m b M).
    assert (CS : convert (S (length (m :: b))) (m :: b ++ "]"%char :: t) = convert 0 t) by (replace (S (length (m :: b))) with (length (m :: b ++ ["]"%char])) by (cbn; rewrite app_length; cbn; lia); change (m :: b ++ "]"%char :: t) with (m :: b ++ (["]"%char] ++ t)); rewrite app_assoc; apply (convert_skip (m :: b ++ ["]"%char]))). rewrite CS, <- app_assoc.
    apply gb_cons with n; [|exact G]. apply gp_atom, gt_not. exact B'.
  - exists (Seq (Chr "[") r). split; [exact (ir_cons (GChr "[") l r [] I IR)|]. cbn [convert]. change (Ascii.eqb "[" "*") with false. change (Ascii.eqb "[" "?") with false. change (Ascii.eqb "[" "[") with true. cbn iota. rewrite (bracket_none t NC). rewrite <- app_assoc. apply gb_cons with n; [|exact G]. apply gp_atom, (gt_esc n "[").
  - exists (Seq (Chr c) r). split; [exact (ir_cons (GChr c) l r [] I IR)|]. cbn [convert]. destruct (Ascii.eqb_spec c "*"); [congruence|]. destruct (Ascii.eqb_spec c "?"); [congruence|]. destruct (Ascii.eqb_spec c "["); [congruence|]. rewrite <- app_assoc. now apply lit_legal.
Qed.
Lemma glob_legal_whole : forall p l, glob_text p l -> exists r, items_re l r /\ g_alt 1 (pattern_to_regex true p) (Seq Bol r) 1.
Proof. intros p l H. destruct (glob_legal p l H 1) as (r & IR & G). exists r. split; [exact IR|]. apply ga_one. unfold pattern_to_regex. apply gb_cons with 1; [apply gp_atom; constructor|exact G]. Qed.

(** What the expression matches. *)
Lemma m_seq_inv : forall s a b i k, matches s (Seq a b) i k -> exists j, matches s a i j /\ matches s b j k.
Proof. intros s a b i k H. inversion H; subst. eauto. Qed.
Lemma m_cls_inv : forall s neg cs i j, matches s (Cls neg cs) i j -> exists c, nth_error s i = Some c /\ class_has neg cs c /\ j = S i.
Proof. intros s neg cs i j H. inversion H; subst. eauto. Qed.
Lemma skip_skip : forall (s : str) i k, skipn (i + k) s = skipn k (skipn i s).
Proof. induction s as [|c s IH]; intros [|i] k; cbn [skipn Nat.add]; try reflexivity; [now rewrite skipn_nil|]. apply IH. Qed.
Lemma skipn_nth : forall (s : str) i c, nth_error s i = Some c -> skipn i s = c :: skipn (S i) s.
Proof. induction s as [|d s IH]; intros [|i] c H; try discriminate; cbn in *; [congruence|]. rewrite (IH i c H). reflexivity. Qed.
Lemma nth_skipn : forall (s : str) i c b, skipn i s = c :: b -> nth_error s i = Some c /\ skipn (S i) s = b /\ i < length s.
Proof. induction s as [|d s IH]; intros [|i] c b H; try discriminate; cbn in *; [injection H as <- <-; repeat split; lia|]. destruct (IH i c b H) as (A & B & C). repeat split; auto. lia. Qed.
Lemma slash_class : forall c, class_has true [("/", "/")%char] c <-> c <> "/"%char.
Proof.
  intro c. cbn [class_has]. assert (E : class_in [("/", "/")%char] c <-> c = "/"%char).
  { rewrite in_cons. unfold upto. split; [intros [U|(lo & hi & [] & _)]|intros ->; left; lia]. rewrite <- (ascii_nat_embedding c). replace (nat_of_ascii c) with (nat_of_ascii "/") by lia. reflexivity. }
  tauto.
Qed.
Lemma star_slash : forall s r, r = Star not_slash -> forall i j, i <= length s -> (matches s r i j <-> exists a, ~ In "/"%char a /\ skipn i s = a ++ skipn j s /\ j = i + length a).
Proof.
  intros s r Er i j Hi. split.
  - intro H. induction H as [| | | | | | |r0 i|r0 i j k H1 IH1 H2 IH2| | | | | |]; try discriminate.
    + exists []. split; [intros []|]. split; [reflexivity|cbn; lia].
    + injection Er as ->. apply m_cls_inv in H1. destruct H1 as (c & E & K & ->). apply slash_class in K. assert (i < length s) by (apply nth_error_Some; congruence). destruct (IH2 eq_refl ltac:(lia)) as (a & N & E2 & ->). exists (c :: a). split; [intros [X|X]; [congruence|auto]|]. split; [rewrite (skipn_nth s i c E), E2; reflexivity|cbn; lia].
  - subst r. intros (a & N & E & ->). revert i Hi E. induction a as [|c a IH]; intros i Hi E; [cbn; rewrite Nat.add_0_r; apply m_star_nil|].
    destruct (nth_skipn s i c _ E) as (E1 & E2 & E3). eapply m_star_more; [eapply m_cls; [exact E1|]; apply slash_class; intro X; apply N; now left|].
    cbn [length]. replace (i + S (length a)) with (S i + length a) by lia. apply IH; [intro X; apply N; now right|lia|]. rewrite E2. cbn [length]. rewrite Nat.add_succ_r. reflexivity.
Qed.
Lemma items_match : forall s l r, items_re l r -> forall i, i <= length s -> ((exists j, matches s r i j) <-> glob_match l (skipn i s)).
Proof.
  intros s l r IR. induction IR as [|it l r cs' C IR IH]; intros i Hi.
  - split.
    + intros [j H]. apply m_seq_inv in H. destruct H as (k & H & _). inversion H; subst. rewrite skipn_all. constructor.
    + intro H. inversion H as [E| | | |]. exists (length s). assert (i = length s). { assert (Q : length (skipn i s) = 0) by (now destruct (skipn i s)). rewrite skipn_length in Q. lia. } subst i. eapply m_seq; [apply m_eol|apply m_eps].
  - destruct it as [| |neg cs|c]; cbn [item_re].
    + split.
      * intros [k H]. apply m_seq_inv in H. destruct H as (j & H1 & H2). pose proof (m_bound _ _ _ _ H1 Hi) as HJ. apply (star_slash s _ eq_refl i j Hi) in H1. destruct H1 as (a & N & E & _). rewrite E. constructor; [exact N|]. apply IH; eauto.
      * intro H. inversion H as [|l0 a b N G E1 E2| | |]; subst. assert (Eb : b = skipn (i + length a) s).
        { transitivity (skipn (length a) (skipn i s)); [rewrite <- E2, skipn_app, skipn_all, Nat.sub_diag; reflexivity|]. rewrite skip_skip. reflexivity. }
        assert (LB : i + length a <= length s). { assert (Q : length (a ++ b) = length (skipn i s)) by congruence. rewrite app_length, skipn_length in Q. lia. }
        rewrite Eb in G. apply (IH _ LB) in G. destruct G as [k G]. exists k. eapply m_seq; [|exact G]. apply (star_slash s _ eq_refl i _ Hi). exists a. split; [exact N|]. split; [rewrite <- Eb; auto|reflexivity].
    + split.
      * intros [k H]. apply m_seq_inv in H. destruct H as (j & H1 & H2). pose proof (m_bound _ _ _ _ H1 Hi) as HJ. apply m_cls_inv in H1. destruct H1 as (c & E & K & ->). rewrite (skipn_nth s i c E). constructor; [now apply slash_class|]. apply IH; eauto.
      * intro H. inversion H as [| |l0 c b N G E1 E2| |]; subst. symmetry in E2. apply nth_skipn in E2. destruct E2 as (E2 & <- & LB). apply (IH (S i) LB) in G. destruct G as [k G]. exists k. eapply m_seq; [|exact G]. eapply m_cls; [exact E2|now apply slash_class].
    + inversion C as [cs0 cs0' SS _ E1 E2]; subst. assert (CH : forall c, class_has neg cs c <-> class_has neg cs' c) by (intro c; destruct neg; cbn; rewrite SS; reflexivity). split.
      * intros [k H]. apply m_seq_inv in H. destruct H as (j & H1 & H2). pose proof (m_bound _ _ _ _ H1 Hi) as HJ. apply m_cls_inv in H1. destruct H1 as (c & E & K & ->). rewrite (skipn_nth s i c E). constructor; [now apply CH|]. apply IH; eauto.
      * intro H. inversion H as [| | |neg0 cs0 l0 c b N G E1 E2|]; subst. symmetry in E2. apply nth_skipn in E2. destruct E2 as (E2 & <- & LB). apply (IH (S i) LB) in G. destruct G as [k G]. exists k. eapply m_seq; [|exact G]. eapply m_cls; [exact E2|now apply CH].
    + split.
      * intros [k H]. apply m_seq_inv in H. destruct H as (j & H1 & H2). pose proof (m_bound _ _ _ _ H1 Hi) as HJ. inversion H1 as [| | | | |c0 i0 E| | | | | | | | |]; subst. rewrite (skipn_nth s i c E). constructor. apply IH; eauto.
      * intro H. inversion H as [| | | |c0 l0 b G E1 E2]; subst. symmetry in E2. apply nth_skipn in E2. destruct E2 as (E2 & <- & LB). apply (IH (S i) LB) in G. destruct G as [k G]. exists k. eapply m_seq; [|exact G]. now apply m_chr.
Qed.
Lemma items_size : forall l r, items_re l r -> re_size r <= glob_size l + 3.
Proof.
  intros l r IR. induction IR as [|it l r cs' C IR IH]; [cbn; lia|]. change (glob_size (it :: l)) with (item_size it + glob_size l). cbn [re_size]. assert (re_size (item_re it cs') <= item_size it); [|lia].
  destruct it as [| |neg cs|c]; cbn [item_re item_size].
  - vm_compute; lia.
  - vm_compute; lia.
  - inversion C; subst. cbn [re_size]. lia.
  - cbn; lia.
Qed.
Lemma convert_nul : forall k p, ~ In NUL p -> ~ In NUL (convert k p).
Proof.
  assert (D : forall b, ~ In NUL b -> ~ In NUL (double_backslashes b)).
  { intros b N K. unfold double_backslashes in K. apply in_flat_map in K. destruct K as (c & I0 & K). destruct (Ascii.eqb c "\"); cbn in K; intuition congruence. }
  assert (BR : forall b, ~ In NUL b -> ~ In NUL (bracket_regex b)).
  { intros b N K. unfold bracket_regex in K. change (L "[") with ["["%char] in K. change (L "]") with ["]"%char] in K. apply in_app_or in K. destruct K as [[K|[]]|K]; [discriminate|]. apply in_app_or in K. destruct K as [K|[K|[]]]; [|discriminate].
    destruct b as [|c b]; [exact K|]. destruct (Ascii.eqb c "!").
    - change (L "^") with ["^"%char] in K. destruct K as [K|K]; [discriminate|]. apply (D b); [|exact K]. intro X. apply N. now right.
    - exact (D _ N K). }
  intros k p. revert k. induction p as [|c p IH]; intros k N K; [exact K|]. assert (N1 : ~ In NUL p) by (intro X; apply N; now right). assert (N2 : c <> NUL) by (intro X; apply N; now left).
  cbn [convert] in K. destruct k as [|k]; [|exact (IH k N1 K)].
  destruct (Ascii.eqb c "*"). { apply in_app_or in K. destruct K as [K|K]; [|exact (IH 0 N1 K)]. vm_compute in K. intuition discriminate. }
  destruct (Ascii.eqb c "?"). { apply in_app_or in K. destruct K as [K|K]; [|exact (IH 0 N1 K)]. vm_compute in K. intuition discriminate. }
  destruct (Ascii.eqb c "[").
  - destruct (bracket p) as [b|] eqn:B.
    + apply in_app_or in K. destruct K as [K|K]; [|exact (IH _ N1 K)]. apply (BR b); [|exact K]. intro X. apply bracket_closed in B. destruct B as (m & b1 & r & -> & E & _). apply N1. rewrite E. apply in_app_or in X. apply in_or_app. destruct X; [now left|right; apply in_or_app; now left].
    + apply in_app_or in K. destruct K as [K|K]; [|exact (IH 0 N1 K)]. vm_compute in K. intuition discriminate.
  - apply in_app_or in K. destruct K as [K|K]; [|exact (IH 0 N1 K)]. destruct (is_alpha c || is_digit c)%bool; [destruct K as [K|[]]; congruence|]. destruct K as [K|[K|[]]]; [discriminate|congruence].
Qed.
Lemma regex_nul : forall p, ~ In NUL p -> ~ In NUL (pattern_to_regex true p).
Proof. intros p N K. unfold pattern_to_regex in K. apply in_app_or in K. destruct K as [K|K]; [vm_compute in K; intuition discriminate|]. apply in_app_or in K. destruct K as [K|K]; [exact (convert_nul 0 p N K)|vm_compute in K; intuition discriminate]. Qed.
