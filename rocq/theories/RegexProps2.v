(** RegexProps2.v -- C93: what kwiversys::RegularExpression finds. *)
From Coq Require Import List Ascii Bool Arith Lia.
Import ListNotations.
From Verif Require Import Base RegexModel RegexSpec RegexAst RegexGen RegexGrammar RegexCompile RegexCompile2 RegexWays RegexFind RegexProps.

Lemma compiled_tree : forall e r ng x, ~ In NUL e -> g_alt 1 e r ng -> compile_string e = COk (Some x) ->
  exists l, wf_alts l /\ length (prog l) < B64 /\ x_prog x = prog l /\ hints l x /\ den_alts l = r.
Proof.
  intros e r ng x N G E. unfold compile_string in E. rewrite c_str_id in E by exact N. destruct (grammar_tree e r ng N G) as (l0 & P0 & D0).
  destruct (compile_ok e N) as [(l & np & P & W & H)|(_ & H)]; [|congruence].
  assert (l0 = l) by (unfold okpass in *; congruence). subst l0.
  destruct (LIMIT <=? length (prog l)) eqn:Q; [congruence|]. apply lim in Q. destruct H as (y & Ey & P1 & P2). assert (x = y) by congruence. subst y. exists l. auto.
Qed.
Lemma find_found : forall e r ng x s, ~ In NUL e -> g_alt 1 e r ng -> compile_string e = COk (Some x) -> exists n0, forall n, n0 <= n -> found (c_str s) r (find_string n x s).
Proof. intros e r ng x s N G E. destruct (compiled_tree e r ng x N G E) as (l & W & H & P & HI & <-). exact (find_ok (c_str s) l x W H P HI). Qed.

(** find ends, stays inside the program and the text, and answers whether the
    expression matches somewhere in the text (up to its first NUL). *)
Theorem C93_answer : forall e r ng x s, ~ In NUL e -> g_alt 1 e r ng -> compile_string e = COk (Some x) ->
  exists n0, forall n, n0 <= n -> exists b g, find_string n x s = MRes b g /\ (b = true <-> exists i j, i <= length (c_str s) /\ matches (c_str s) r i j).
Proof.
  intros e r ng x s N G E. destruct (find_found e r ng x s N G E) as [n0 F]. exists n0. intros n Hn. destruct (F n Hn) as [(g & i & j & ev & rest & M & Hi & WA & _)|(g & M & NO)].
  - exists true, g. split; [exact M|]. split; [intros _|reflexivity]. exists i, j. split; [exact Hi|]. apply (ways_sound _ _ _ _ ev Hi). rewrite WA. now left.
  - exists false, g. split; [exact M|]. split; [discriminate|]. intros (i & j & Hi & MA). exfalso.
    destruct (ways_complete _ _ (proj1 g_solid _ _ _ _ G) i j Hi MA) as [ev I0]. rewrite (NO i Hi) in I0. destruct I0.
Qed.
Print Assumptions C93_answer.
(** The match reported is leftmost, and at that place the preferred way: the
    earliest alternative, the longest repetition. *)
Theorem C93_leftmost_preferred : forall e r ng x s, ~ In NUL e -> g_alt 1 e r ng -> compile_string e = COk (Some x) ->
  exists n0, forall n, n0 <= n -> forall g, find_string n x s = MRes true g ->
  exists i j, nth 0 (g_start g) None = Some i /\ nth 0 (g_end g) None = Some j /\ i <= j /\ j <= length (c_str s) /\ matches (c_str s) r i j /\
    (forall i' j', matches (c_str s) r i' j' -> i <= i') /\
    exists ev rest, ways (c_str s) r i = (j, ev) :: rest /\ forall k, 1 <= k < 10 -> nth k (g_start g) None = entered k ev /\ nth k (g_end g) None = left_at k ev.
Proof.
  intros e r ng x s N G E. destruct (find_found e r ng x s N G E) as [n0 F]. exists n0. intros n Hn g Q. destruct (F n Hn) as [(g' & i & j & ev & rest & M & Hi & WA & LE & S0 & E0 & GR)|(g' & M & NO)]; [|congruence].
  assert (g' = g) by congruence. subst g'. assert (MA : matches (c_str s) r i j) by (apply (ways_sound _ _ _ _ ev Hi); rewrite WA; now left).
  exists i, j. split; [exact S0|]. split; [exact E0|]. split; [exact (m_mono _ _ _ _ MA)|]. split; [exact (m_bound _ _ _ _ MA Hi)|]. split; [exact MA|]. split.
  - intros i' j' MA'. destruct (le_lt_dec i i') as [L1|L1]; [exact L1|]. exfalso. destruct (ways_complete _ _ (proj1 g_solid _ _ _ _ G) i' j' (Nat.lt_le_incl _ _ (Nat.lt_le_trans _ _ _ L1 Hi)) MA') as [ev' I0]. rewrite (LE i' L1) in I0. destruct I0.
  - exists ev, rest. split; [exact WA|exact GR].
Qed.
Print Assumptions C93_leftmost_preferred.
(** Every group reported lies inside the match, and its text matches the
    group's own expression. *)
Theorem C93_groups : forall e r ng x s, ~ In NUL e -> g_alt 1 e r ng -> compile_string e = COk (Some x) ->
  exists n0, forall n, n0 <= n -> forall g i j, find_string n x s = MRes true g -> nth 0 (g_start g) None = Some i -> nth 0 (g_end g) None = Some j ->
  forall k, 1 <= k < 10 ->
    (nth k (g_start g) None = None /\ nth k (g_end g) None = None) \/
    (exists a b body, nth k (g_start g) None = Some a /\ nth k (g_end g) None = Some b /\ i <= a /\ a <= b /\ b <= j /\ In (k, body) (groups r) /\ matches (c_str s) body a b).
Proof.
  intros e r ng x s N G E. destruct (find_found e r ng x s N G E) as [n0 F]. exists n0. intros n Hn g i0 j0 Q S1 E1 k Hk. destruct (F n Hn) as [(g' & i & j & ev & rest & M & Hi & WA & LE & S0 & E0 & GR)|(g' & M & NO)]; [|congruence].
  assert (g' = g) by congruence. subst g'. assert (i0 = i) by congruence. assert (j0 = j) by congruence. subst i0 j0.
  destruct (GR k Hk) as [-> ->]. apply (ways_span (c_str s) r (proj2 (proj1 g_numbered _ _ _ _ G)) k i j ev Hi). rewrite WA. now left.
Qed.
Print Assumptions C93_groups.
(** A group that takes part in every match is reported. *)
Fixpoint always (k : nat) (r : re) : Prop :=
  match r with
  | Grp n r => n = k \/ always k r
  | Plus r => always k r
  | Seq a b => always k a \/ always k b
  | Alt a b => always k a /\ always k b
  | _ => False
  end.
Lemma always_entered : forall s k r, always k r -> forall i j ev, In (j, ev) (ways s r i) -> entered k ev <> None.
Proof.
  intros s k r. induction r as [| | | |neg cs|c|n r IH|r IH|r IH|r IH|a IHa b IHb|a IHa b IHb]; intros A i j ev I0; cbn [always ways] in *; try contradiction.
  - apply in_map_iff in I0. destruct I0 as ((j' & e') & Q & I0). injection Q as <- <-. cbn [entered]. rewrite ent_app. destruct A as [-> |A].
    + destruct (entered k e'); [discriminate|]. cbn. now rewrite Nat.eqb_refl.
    + pose proof (IH A i j' e' I0). destruct (entered k e'); congruence.
  - apply in_wt in I0. destruct I0 as (m & e1 & e2 & I1 & I2 & ->). rewrite ent_app. pose proof (IH A i m e1 I1). destruct (entered k e2); congruence.
  - apply in_wt in I0. destruct I0 as (m & e1 & e2 & I1 & I2 & ->). rewrite ent_app. destruct A as [A|A]; [pose proof (IHa A i m e1 I1)|pose proof (IHb A m j e2 I2)]; destruct (entered k e2); congruence.
  - destruct A as [A B]. apply in_app_or in I0. destruct I0 as [I0|I0]; [eapply IHa|eapply IHb]; eauto.
Qed.
Theorem C93_group_reported : forall e r ng x s k, ~ In NUL e -> g_alt 1 e r ng -> compile_string e = COk (Some x) -> always k r -> 1 <= k < 10 ->
  exists n0, forall n, n0 <= n -> forall g, find_string n x s = MRes true g -> nth k (g_start g) None <> None /\ nth k (g_end g) None <> None.
Proof.
  intros e r ng x s k N G E A Hk. destruct (find_found e r ng x s N G E) as [n0 F]. destruct (C93_groups e r ng x s N G E) as [n1 F1]. exists (max n0 n1). intros n Hn g Q.
  destruct (F n ltac:(lia)) as [(g' & i & j & ev & rest & M & Hi & WA & LE & S0 & E0 & GR)|(g' & M & NO)]; [|congruence]. assert (g' = g) by congruence. subst g'.
  destruct (F1 n ltac:(lia) g i j Q S0 E0 k Hk) as [[H1 _]|(a & b & body & H1 & H2 & _)]; [|rewrite H1, H2; split; discriminate].
  exfalso. rewrite (proj1 (GR k Hk)) in H1. apply (always_entered (c_str s) k r A i j ev); [rewrite WA; now left|exact H1].
Qed.
Print Assumptions C93_group_reported.

(** It is not the longest match. *)
Definition re_alt : re := Alt (Seq (Chr "a") Eps) (Seq (Chr "a") (Seq (Chr "b") Eps)).
Lemma alt_legal : g_alt 1 (L "a|ab") re_alt 1.
Proof.
  assert (Q : forall n c t r, ~ special c -> g_branch n t r n -> g_branch n (c :: t) (Seq (Chr c) r) n) by (intros n c t r H B; apply (gb_cons n [c] _ n t r n); [now apply plain|exact B]).
  apply (ga_more 1 ["a"%char] _ 1 ["a"%char; "b"%char] _ 1); [|apply ga_one]; repeat (apply Q; [intro K; apply RegexGrammar2.special_iff in K; discriminate K|]); constructor.
Qed.
Theorem C93_longest_refuted : exists e r ng x s g, g_alt 1 e r ng /\ compile_string e = COk (Some x) /\ matches (c_str s) r 0 2 /\
  (exists n0, forall n, n0 <= n -> find_string n x s = MRes true g) /\ nth 0 (g_start g) None = Some 0 /\ nth 0 (g_end g) None = Some 1.
Proof.
  destruct (compile_string (L "a|ab")) as [[x|]| | |] eqn:E; try (vm_compute in E; discriminate E).
  exists (L "a|ab"), re_alt, 1, x, (L "ab"), (mkG 1 (Some 0 :: repeat None 9) (Some 1 :: repeat None 9)).
  split; [exact alt_legal|]. split; [exact E|]. split.
  - apply m_alt_r. eapply m_seq; [apply m_chr; reflexivity|]. eapply m_seq; [apply m_chr; reflexivity|constructor].
  - split; [|split; reflexivity]. exists 5. intros n Hn. replace n with (5 + (n - 5)) by lia. generalize (n - 5). intro k. vm_compute in E. injection E as <-. reflexivity.
Qed.
Print Assumptions C93_longest_refuted.

Example C93_ex : exists x g, compile_string (L "a(b|c)*") = COk (Some x) /\ find_string 60 x (L "xxabcb") = MRes true g /\ match_n (L "xxabcb") g 0 = L "abcb" /\ match_n (L "xxabcb") g 1 = L "b".
Proof. eexists. eexists. split; [vm_compute; reflexivity|]. split; [vm_compute; reflexivity|]. split; vm_compute; reflexivity. Qed.
Example C93_ex_always : always 1 (Seq (Grp 1 Any) Eps) /\ ~ always 1 re_ex.
Proof. split; [left; left; reflexivity|]. cbn. intuition congruence. Qed.
