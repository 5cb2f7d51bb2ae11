(** GlobProps.v -- C95: what a glob pattern matches (kwiversys::Glob). *)
From Coq Require Import List Ascii Bool Arith Lia.
Import ListNotations.
From Verif Require Import Base RegexModel RegexSpec RegexProps RegexProps2 RegexSize GlobModel GlobSpec GlobProofs GlobProofs2.

Lemma whole_match : forall s l r, items_re l r -> (exists i j, i <= length s /\ matches s (Seq Bol r) i j) <-> glob_match l s.
Proof.
  intros s l r IR. split.
  - intros (i & j & Hi & M). apply m_seq_inv in M. destruct M as (k & M1 & M2). inversion M1; subst. apply (items_match s l r IR 0); [lia|]. eauto.
  - intro G. apply (items_match s l r IR 0) in G; [|lia]. destruct G as [j M]. exists 0, j. split; [lia|]. eapply m_seq; [constructor|exact M].
Qed.
(** A pattern that is accepted can be read, and a name is found exactly if it
    matches the pattern from its first to its last character. *)
Theorem C95_meaning : forall p x, ~ In NUL p -> compile_string (pattern_to_regex true p) = COk (Some x) ->
  exists its, glob_text p its /\ forall name, ~ In NUL name -> exists n0, forall n, n0 <= n -> exists b, hit n (Some x) name = Some b /\ (b = true <-> glob_match its name).
Proof.
  intros p x N E. destruct (readable_whole p x N E) as [its GT]. exists its. split; [exact GT|]. intros name NN. destruct (glob_legal_whole p its GT) as (r & IR & G).
  destruct (C93_answer _ _ _ _ name (regex_nul p N) G E) as [n0 F]. exists n0. intros n Hn. destruct (F n Hn) as (b & g & M & A). exists b. cbn [hit]. rewrite M. split; [reflexivity|].
  rewrite c_str_id in A by exact NN. rewrite A. now apply whole_match.
Qed.
Print Assumptions C95_meaning.
(** A pattern has at most one reading. *)
Lemma class_text_det : forall p t a, class_text p t a -> forall b, class_text p t b -> a = b.
Proof.
  intros p t a H. induction H as [p|p|p q t cs N LE H IH|p q t cs N1 N2 H IH]; intros b K; inversion K; subst; try congruence; try (f_equal; now apply IH).
Qed.
Lemma class_body_det : forall t a b, class_body t a -> class_body t b -> a = b.
Proof. intros t a b H K. inversion H; subst. inversion K; subst. f_equal. eapply class_text_det; eassumption. Qed.
Lemma body_unique : forall b1 c1 b2 c2 t1 t2, class_body b1 c1 -> class_body b2 c2 -> b1 ++ "]"%char :: t1 = b2 ++ "]"%char :: t2 -> b1 = b2 /\ t1 = t2.
Proof.
  intros b1 c1 b2 c2 t1 t2 H1 H2 E. destruct (body_nonempty _ _ H1) as (p1 & q1 & -> & N1). destruct (body_nonempty _ _ H2) as (p2 & q2 & -> & N2). cbn [app] in E. injection E as <- E. destruct (no_close_unique _ _ _ _ N1 N2 E) as [-> ->]. auto.
Qed.
Lemma set_closed : forall m b cs t, m = [] /\ (forall c r, b = c :: r -> c <> "!"%char /\ c <> "^"%char) \/ m = ["!"%char] \/ m = ["^"%char] -> class_body b cs -> closed (m ++ b ++ "]"%char :: t).
Proof.
  intros m b cs t M B. exists b, t. destruct (body_nonempty _ _ B) as (p & q & -> & N). split; [discriminate|]. destruct M as [[-> M]|[-> | ->]]; [|reflexivity|reflexivity].
  destruct (M p q eq_refl) as [M1 M2]. cbn [app unmarked]. destruct (Ascii.eqb_spec p "!"); [congruence|]. destruct (Ascii.eqb_spec p "^"); [congruence|]. reflexivity.
Qed.
Lemma open_inv : forall p l2, glob_text p l2 -> forall t, p = "["%char :: t ->
  (exists b cs u l, t = b ++ "]"%char :: u /\ l2 = GSet false cs :: l /\ class_body b cs /\ (forall c r, b = c :: r -> c <> "!"%char /\ c <> "^"%char) /\ glob_text u l) \/
  (exists m b cs u l, t = m :: b ++ "]"%char :: u /\ l2 = GSet true cs :: l /\ (m = "!"%char \/ m = "^"%char) /\ class_body b cs /\ glob_text u l) \/
  (exists l, l2 = GChr "[" :: l /\ ~ closed t /\ glob_text t l).
Proof.
  intros p l2 H t E. destruct H as [|u l H|u l H|b cs u l B NM H|m b cs u l M B H|u l NC H|c u l N1 N2 N3 H]; try discriminate.
  - left. exists b, cs, u, l. split; [|auto]. change ("["%char :: (b ++ "]"%char :: u) = "["%char :: t) in E. congruence.
  - right. left. exists m, b, cs, u, l. split; [|auto]. change ("["%char :: (m :: b ++ "]"%char :: u) = "["%char :: t) in E. congruence.
  - right. right. exists l. injection E as <-. auto.
  - congruence.
Qed.
Theorem C95_one_reading : forall p l1 l2, glob_text p l1 -> glob_text p l2 -> l1 = l2.
Proof.
  intros p l1 l2 H. revert l2. induction H as [|t l H IH|t l H IH|b cs t l B NM H IH|m b cs t l M B H IH|t l NC H IH|c t l N1 N2 N3 H IH]; intros l2 K.
  - inversion K as [| | | | | |]; auto.
  - inversion K; subst; try congruence. f_equal; auto.
  - inversion K; subst; try congruence. f_equal; auto.
  - destruct (open_inv _ _ K (b ++ "]"%char :: t) eq_refl) as [(b' & cs' & u & l' & E & -> & B' & NM' & H')|[(m' & b' & cs' & u & l' & E & -> & M' & B' & H')|(l' & -> & NC' & H')]].
    + destruct (body_unique _ _ _ _ _ _ B B' E) as [-> ->]. rewrite (class_body_det _ _ _ B B'). f_equal. auto.
    + exfalso. destruct b as [|x b]; [inversion B|]. cbn [app] in E. injection E as -> E. destruct (NM m' b eq_refl). destruct M'; congruence.
    + exfalso. apply NC'. apply (set_closed [] b cs t); auto.
  - destruct (open_inv _ _ K (m :: b ++ "]"%char :: t) eq_refl) as [(b' & cs' & u & l' & E & -> & B' & NM' & H')|[(m' & b' & cs' & u & l' & E & -> & M' & B' & H')|(l' & -> & NC' & H')]].
    + exfalso. destruct b' as [|x b']; [inversion B'|]. cbn [app] in E. injection E as -> E. destruct (NM' x b' eq_refl). destruct M; congruence.
    + injection E as -> E. destruct (body_unique _ _ _ _ _ _ B B' E) as [-> ->]. rewrite (class_body_det _ _ _ B B'). f_equal. auto.
    + exfalso. apply NC'. apply (set_closed [m] b cs t); [|exact B]. destruct M as [-> | ->]; auto.
  - destruct (open_inv _ _ K t eq_refl) as [(b' & cs' & u & l' & -> & -> & B' & NM' & H')|[(m' & b' & cs' & u & l' & -> & -> & M' & B' & H')|(l' & -> & NC' & H')]].
    + exfalso. apply NC. apply (set_closed [] b' cs' u); auto.
    + exfalso. apply NC. apply (set_closed [m'] b' cs' u); [|exact B']. destruct M' as [-> | ->]; auto.
    + f_equal. auto.
  - inversion K; subst; try congruence. f_equal. auto.
Qed.
Print Assumptions C95_one_reading.
(** A pattern that cannot be read (a range running backwards) is compiled to
    nothing and matches no name; no warning, no error. *)
Theorem C95_unreadable : forall p, ~ In NUL p -> (forall its, ~ glob_text p its) -> compile_string (pattern_to_regex true p) = COk None /\ forall n name, hit n None name = Some false.
Proof.
  intros p N NO. split; [|reflexivity]. destruct (C92_compile_total (pattern_to_regex true p)) as [[x|] E]; [|exact E]. exfalso. destruct (readable_whole p x N E) as [its G]. exact (NO its G).
Qed.
Print Assumptions C95_unreadable.
(** A pattern that can be read is accepted if it is not huge. *)
Theorem C95_accepted : forall p its, ~ In NUL p -> glob_text p its -> glob_size its + 16 < LIMIT -> exists x, compile_string (pattern_to_regex true p) = COk (Some x).
Proof.
  intros p its N GT SZ. destruct (glob_legal_whole p its GT) as (r & IR & G). apply (C92_small_is_accepted _ _ _ (regex_nul p N) G). pose proof (items_size its r IR). cbn [re_size]. lia.
Qed.
Print Assumptions C95_accepted.
(** Patterns without '[' can always be read. *)
Theorem C95_plain : forall p, ~ In "["%char p -> exists its, glob_text p its /\ glob_size its <= 17 * length p.
Proof.
  induction p as [|c p IH]; intro N; [exists []; split; [constructor|cbn; lia]|]. destruct IH as (its & G & Z); [intro K; apply N; now right|]. cbn [length].
  destruct (ascii_dec c "*") as [->|N1]; [exists (GStar :: its); split; [now constructor|change (glob_size (GStar :: its)) with (17 + glob_size its); lia]|].
  destruct (ascii_dec c "?") as [->|N2]; [exists (GOne :: its); split; [now constructor|change (glob_size (GOne :: its)) with (5 + glob_size its); lia]|].
  exists (GChr c :: its). split; [apply gl_chr; auto; intros ->; apply N; now left|change (glob_size (GChr c :: its)) with (5 + glob_size its); lia].
Qed.
Print Assumptions C95_plain.
(** A name without wildcards selects itself and nothing else. *)
Theorem C95_literal : forall p, ~ In "["%char p -> ~ In "*"%char p -> ~ In "?"%char p -> exists its, glob_text p its /\ forall name, glob_match its name <-> name = p.
Proof.
  intros p N1 N2 N3. exists (map GChr p). split.
  - induction p as [|c p IH]; [constructor|]. cbn [map]. apply gl_chr; [intros ->; apply N2; now left|intros ->; apply N3; now left|intros ->; apply N1; now left|]. apply IH; intro K; [apply N1|apply N2|apply N3]; now right.
  - induction p as [|c p IH]; intro name; cbn [map]; [split; [intro H; inversion H; auto|intros ->; constructor]|]. split.
    + intro H. inversion H; subst. f_equal. apply IH; auto; intro K; [apply N1|apply N2|apply N3]; now right.
    + intros ->. constructor. apply IH; auto; intro K; [apply N1|apply N2|apply N3]; now right.
Qed.
Print Assumptions C95_literal.

Lemma cb_az : class_body (L "a-z") [("a", "a"); ("a", "z")]%char. 
Proof. constructor. apply ct_range; [discriminate|cbn; lia|constructor]. Qed.
Example C95_ex : glob_text (L "*.[ch]pp") [GStar; GChr "."; GSet false [("c", "c"); ("h", "h")]; GChr "p"; GChr "p"]%char.
Proof.
  change (L "*.[ch]pp") with ("*"%char :: "."%char :: (L "[" ++ L "ch" ++ L "]" ++ L "pp")). apply gl_star. apply gl_chr; try discriminate. apply gl_set.
  - constructor. apply ct_char; [discriminate|discriminate|constructor].
  - intros c r E. injection E as <- _. split; discriminate.
  - repeat (apply gl_chr; try discriminate). constructor.
Qed.
Example C95_ex_match : glob_match [GStar; GChr "."; GSet false [("c", "c"); ("h", "h")]; GChr "p"; GChr "p"]%char (L "a.b.hpp") /\ ~ glob_match [GStar; GChr "."]%char (L "a/.").
Proof.
  split.
  - change (L "a.b.hpp") with (L "a.b" ++ L ".hpp"). apply gm_star; [intros K; vm_compute in K; intuition discriminate|]. apply gm_chr, gm_set; [exists "h"%char, "h"%char; split; [cbn; auto|split; cbn; lia]|]. repeat apply gm_chr. constructor.
  - intro H. inversion H as [|l a b N G E1 E2| | |]; subst. inversion G as [| | | |c l0 b0 G0 E3 E4]; subst. inversion G0; subst. change (L "a/.") with (L "a/" ++ ["."%char]) in E2. apply app_inj_tail in E2. destruct E2 as [-> _]. apply N. vm_compute. auto.
Qed.
Example C95_ex_accepted : exists x, compile_string (pattern_to_regex true (L "*.[ch]pp")) = COk (Some x).
Proof. eapply C95_accepted; [vm_compute; intuition discriminate|exact C95_ex|]. cbn [glob_size map list_sum fold_right item_size ranges_size]. unfold LIMIT. lia. Qed.
(** Not so: that a closed bracket expression can always be read. *)
Theorem C95_backwards_refuted : compile_string (pattern_to_regex true (L "[z-a]")) = COk None /\ closed (L "z-a]").
Proof. split; [vm_compute; reflexivity|exists (L "z-a"), []; split; [discriminate|reflexivity]]. Qed.
Print Assumptions C95_backwards_refuted.
(** Not so: that '*' leaves out hidden files, as in a shell. *)
Theorem C95_hidden_refuted : exists its, glob_text (L "*") its /\ glob_match its (L ".hidden").
Proof. exists [GStar]. split; [exact (gl_star [] [] gl_end)|]. rewrite <- (app_nil_r (L ".hidden")). apply gm_star; [vm_compute; intuition discriminate|constructor]. Qed.
Print Assumptions C95_hidden_refuted.
