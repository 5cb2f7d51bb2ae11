(** RegexWays.v -- facts about [ways] and [matches] of RegexSpec. *)
From Coq Require Import List Ascii Bool Arith Lia.
Import ListNotations.
From Verif Require Import Base RegexSpec.

(** ways_then *)
Lemma wt_app : forall l1 l2 f, ways_then (l1 ++ l2) f = ways_then l1 f ++ ways_then l2 f.
Proof. intros. unfold ways_then. apply flat_map_app. Qed.
Lemma wt_map : forall l f, map (fun '(k, e') => (k, e' ++ (@nil ev))) l = l -> ways_then [(f, [])] (fun _ => l) = l.
Proof. intros l f H. cbn. rewrite app_nil_r. exact H. Qed.
Lemma map_nil_ev : forall l : list way, map (fun '(k, e') => (k, e' ++ [])) l = l.
Proof. induction l as [|[k e] l IH]; [reflexivity|]. cbn. now rewrite app_nil_r, IH. Qed.
Lemma wt_one : forall j f, ways_then [(j, [])] f = f j.
Proof. intros. unfold ways_then. cbn [flat_map]. rewrite app_nil_r. apply map_nil_ev. Qed.
Lemma wt_unit : forall l, ways_then l (fun j => [(j, [])]) = l.
Proof. induction l as [|[j e] l IH]; [reflexivity|]. change ((j, e) :: l) with ([(j, e)] ++ l). rewrite wt_app, IH. reflexivity. Qed.
Lemma in_wt : forall l f k e, In (k, e) (ways_then l f) <-> exists j e1 e2, In (j, e1) l /\ In (k, e2) (f j) /\ e = e2 ++ e1.
Proof.
  intros l f k e. unfold ways_then. rewrite in_flat_map. split.
  - intros ((j & e1) & H1 & H2). apply in_map_iff in H2. destruct H2 as ((k' & e2) & E & H2). injection E as <- <-. exists j, e1, e2. auto.
  - intros (j & e1 & e2 & H1 & H2 & ->). exists (j, e1). split; [exact H1|]. apply in_map_iff. exists (k, e2). auto.
Qed.
Lemma wt_ext : forall l f g, (forall j e, In (j, e) l -> f j = g j) -> ways_then l f = ways_then l g.
Proof.
  intros l f g H. unfold ways_then. induction l as [|[j e] l IH]; [reflexivity|]. cbn [flat_map]. rewrite (H j e) by now left. f_equal. apply IH. intros. eapply H. right. eassumption.
Qed.
Lemma wt_assoc : forall l f g, ways_then (ways_then l f) g = ways_then l (fun j => ways_then (f j) g).
Proof.
  induction l as [|[j e] l IH]; intros f g; [reflexivity|]. change ((j, e) :: l) with ([(j, e)] ++ l). rewrite !wt_app, IH. f_equal.
  unfold ways_then. cbn [flat_map]. rewrite !app_nil_r. induction (f j) as [|[k e'] m IHm]; [reflexivity|]. cbn [map flat_map]. rewrite map_app, IHm. f_equal. rewrite map_map. apply map_ext. intros [k2 e2]. now rewrite app_assoc.
Qed.
Lemma wt_nil : forall f, ways_then [] f = []. Proof. reflexivity. Qed.

(** Ways and matches. *)
Lemma m_mono : forall s r i j, matches s r i j -> i <= j.
Proof. intros s r i j H. induction H; lia. Qed.
Lemma m_bound : forall s r i j, matches s r i j -> i <= length s -> j <= length s.
Proof. intros s r i j H. induction H; intros; auto; apply Nat.lt_le_incl in H0 || idtac; try (assert (i < length s) by (apply nth_error_Some; congruence); lia). Qed.
Lemma m_nil : forall s r i j, matches s r i j -> i = j -> matches [] r 0 0.
Proof.
  intros s r i j H. induction H; intro E; try (exfalso; lia).
  - constructor.
  - constructor.
  - apply (m_eol []).
  - constructor. auto.
  - constructor.
  - apply m_star_nil.
  - apply m_mono in H, H0. eapply m_plus; [|apply m_star_nil]. apply IHmatches1. lia.
  - apply m_opt_nil.
  - apply m_opt. auto.
  - pose proof (m_mono _ _ _ _ H). pose proof (m_mono _ _ _ _ H0). eapply m_seq; [apply IHmatches1; lia|apply IHmatches2; lia].
  - apply m_alt_l. auto.
  - apply m_alt_r. auto.
Qed.
(** Repetitions are of expressions that do not match nothing. *)
Fixpoint solid (r : re) : Prop :=
  match r with
  | Star r | Plus r => solid r /\ ~ matches [] r 0 0
  | Grp _ r | Opt r => solid r
  | Seq a b | Alt a b => solid a /\ solid b
  | _ => True
  end.
Lemma cls_spec : forall neg cs c, cls_ok neg cs c = true <-> class_has neg cs c.
Proof.
  intros neg cs c. unfold cls_ok, class_has.
  assert (E : existsb (fun '(lo, hi) => (nat_of_ascii lo <=? nat_of_ascii c) && (nat_of_ascii c <=? nat_of_ascii hi)) cs = true <-> class_in cs c).
  { rewrite existsb_exists. unfold class_in, upto. split.
    - intros ((lo & hi) & I1 & H). rewrite andb_true_iff, !Nat.leb_le in H. exists lo, hi. auto.
    - intros (lo & hi & I1 & H). exists (lo, hi). rewrite andb_true_iff, !Nat.leb_le. auto. }
  destruct neg; [|rewrite xorb_false_l; exact E]. destruct (existsb _ cs) eqn:Q; cbn; [|split; [intros _ H|reflexivity]].
  - split; [discriminate|]. intro H. elim H. now apply E.
  - apply E in H. congruence.
Qed.
Lemma in_one_char : forall s ok i j e, In (j, e) (one_char s ok i) <-> j = S i /\ e = [] /\ exists c, nth_error s i = Some c /\ ok c = true.
Proof.
  intros s ok i j e. unfold one_char. destruct (nth_error s i) as [c|] eqn:N; [|cbn; split; [tauto|intros (_ & _ & c & E & _); discriminate]].
  destruct (ok c) eqn:O; cbn.
  - split; [intros [E|[]]; injection E as <- <-; eauto 6|]. intros (-> & -> & _). now left.
  - split; [tauto|]. intros (_ & _ & c' & E & O'). injection E as <-. congruence.
Qed.
Lemma ways_sound : forall s r i j e, i <= length s -> In (j, e) (ways s r i) -> matches s r i j.
Proof.
  intros s r. induction r as [| | | |neg cs|c|n r IH|r IH|r IH|r IH|a IHa b IHb|a IHa b IHb]; intros i j e Hi H; cbn [ways] in H.
  - destruct H as [E|[]]. injection E as <- <-. constructor.
  - destruct (Nat.eqb_spec i 0) as [->|]; [|destruct H]. destruct H as [E|[]]. injection E as <- <-. constructor.
  - destruct (Nat.leb_spec (length s) i); [|destruct H]. destruct H as [E|[]]. injection E as <- <-. replace i with (length s) by lia. constructor.
  - apply in_one_char in H. destruct H as (-> & -> & c & N & _). econstructor. eassumption.
  - apply in_one_char in H. destruct H as (-> & -> & c & N & O). econstructor; [eassumption|]. now apply cls_spec.
  - apply in_one_char in H. destruct H as (-> & -> & c' & N & O). apply Ascii.eqb_eq in O. subst c'. now constructor.
  - apply in_map_iff in H. destruct H as ((j' & e') & E & H). injection E as <- <-. constructor. eauto.
  - assert (A : forall k i j e, i <= length s -> In (j, e) (repeat_ways k (ways s r) i) -> matches s (Star r) i j).
    { induction k as [|k IHk]; intros i0 j0 e0 Hi0 H0; cbn [repeat_ways] in H0.
      - destruct H0 as [E|[]]. injection E as <- <-. constructor.
      - apply in_app_or in H0. destruct H0 as [H0|[E|[]]]; [|injection E as <- <-; constructor].
        apply in_wt in H0. destruct H0 as (m & e1 & e2 & I1 & I2 & _). apply IH in I1; [|exact Hi0]. eapply m_star_more; [exact I1|]. eapply IHk; [|exact I2]. eapply m_bound; eassumption. }
    eauto.
  - assert (A : forall k i j e, i <= length s -> In (j, e) (repeat_ways k (ways s r) i) -> matches s (Star r) i j).
    { induction k as [|k IHk]; intros i0 j0 e0 Hi0 H0; cbn [repeat_ways] in H0.
      - destruct H0 as [E|[]]. injection E as <- <-. constructor.
      - apply in_app_or in H0. destruct H0 as [H0|[E|[]]]; [|injection E as <- <-; constructor].
        apply in_wt in H0. destruct H0 as (m & e1 & e2 & I1 & I2 & _). apply IH in I1; [|exact Hi0]. eapply m_star_more; [exact I1|]. eapply IHk; [|exact I2]. eapply m_bound; eassumption. }
    apply in_wt in H. destruct H as (m & e1 & e2 & I1 & I2 & _). apply IH in I1; [|exact Hi]. eapply m_plus; [exact I1|]. eapply A; [|exact I2]. eapply m_bound; eassumption.
  - apply in_app_or in H. destruct H as [H|[E|[]]]; [apply m_opt; eauto|injection E as <- <-; apply m_opt_nil].
  - apply in_wt in H. destruct H as (m & e1 & e2 & I1 & I2 & _). apply IHa in I1; [|exact Hi]. eapply m_seq; [exact I1|]. eapply IHb; [|exact I2]. eapply m_bound; eassumption.
  - apply in_app_or in H. destruct H as [H|H]; [apply m_alt_l|apply m_alt_r]; eauto.
Qed.
Lemma star_ways : forall s r, (forall i j, i <= length s -> matches s r i j -> exists e, In (j, e) (ways s r i)) -> ~ matches [] r 0 0 ->
  forall q i j, matches s q i j -> q = Star r -> forall k, i <= length s -> length s - i <= k -> exists e, In (j, e) (repeat_ways k (ways s r) i).
Proof.
  intros s r IH NN q i j H. induction H; intro E; try discriminate; injection E as ->; intros k0 Hi Hk.
  - exists []. destruct k0; cbn [repeat_ways]; [now left|]. apply in_or_app. right. now left.
  - pose proof (m_mono _ _ _ _ H) as M. assert (i <> j) by (intro; apply NN; eapply m_nil; eassumption). pose proof (m_bound _ _ _ _ H Hi).
    destruct k0 as [|k0]; [lia|]. destruct (IH i j Hi H) as [e1 I1]. destruct (IHmatches2 eq_refl k0) as [e2 I2]; [assumption|lia|].
    exists (e2 ++ e1). cbn [repeat_ways]. apply in_or_app. left. apply in_wt. exists j, e1, e2. auto.
Qed.
Lemma ways_complete : forall s r, solid r -> forall i j, i <= length s -> matches s r i j -> exists e, In (j, e) (ways s r i).
Proof.
  intros s r. induction r as [| | | |neg cs|c|n r IH|r IH|r IH|r IH|a IHa b IHb|a IHa b IHb]; intros SO i j Hi H; cbn [ways solid] in *.
  - inversion H; subst. exists []. now left.
  - inversion H; subst. exists []. now left.
  - inversion H; subst. exists []. rewrite Nat.leb_refl. now left.
  - inversion H; subst. exists []. apply in_one_char. eauto 6.
  - inversion H; subst. exists []. apply in_one_char. rewrite <- cls_spec in *. eauto 6.
  - inversion H; subst. exists []. apply in_one_char. repeat split. exists c. split; [assumption|apply Ascii.eqb_refl].
  - inversion H; subst. destruct (IH SO i j Hi H4) as [e I1]. exists (Leave n j :: e ++ [Enter n i]). apply in_map_iff. exists (j, e). auto.
  - destruct SO as [SO NN]. eapply star_ways; eauto. lia.
  - destruct SO as [SO NN]. inversion H; subst. pose proof (m_bound _ _ _ _ H1 Hi). destruct (IH SO _ _ Hi H1) as [e1 I1].
    destruct (star_ways s r (IH SO) NN _ _ _ H2 eq_refl (length s)) as [e2 I2]; [assumption|lia|]. exists (e2 ++ e1). apply in_wt. eauto 7.
  - inversion H; subst.
    + exists []. apply in_or_app. right. now left.
    + match goal with M : matches s r _ _ |- _ => destruct (IH SO _ _ Hi M) as [e I1] end. exists e. apply in_or_app. now left.
  - destruct SO as [SA SB]. inversion H; subst. match goal with A1 : matches s a _ _, B1 : matches s b _ _ |- _ => pose proof (m_bound _ _ _ _ A1 Hi) as HB; destruct (IHa SA _ _ Hi A1) as [e1 I1]; destruct (IHb SB _ _ HB B1) as [e2 I2] end. exists (e2 ++ e1). apply in_wt. eauto 7.
  - destruct SO as [SA SB]. inversion H; subst.
    + match goal with M : matches s a _ _ |- _ => destruct (IHa SA _ _ Hi M) as [e1 I1] end. exists e1. apply in_or_app. now left.
    + match goal with M : matches s b _ _ |- _ => destruct (IHb SB _ _ Hi M) as [e1 I1] end. exists e1. apply in_or_app. now right.
Qed.
Scheme g_alt_m := Minimality for g_alt Sort Prop with g_branch_m := Minimality for g_branch Sort Prop with g_piece_m := Minimality for g_piece Sort Prop with g_atom_m := Minimality for g_atom Sort Prop.
Combined Scheme g_ind4 from g_alt_m, g_branch_m, g_piece_m, g_atom_m.
Lemma g_solid : (forall n t r n', g_alt n t r n' -> solid r) /\ (forall n t r n', g_branch n t r n' -> solid r) /\ (forall n t r n', g_piece n t r n' -> solid r) /\ (forall n t r n', g_atom n t r n' -> solid r).
Proof. apply g_ind4; intros; cbn [solid]; auto. Qed.

(** Groups. *)
(** No group contains one of its own number. *)
Fixpoint nested (r : re) : Prop :=
  match r with
  | Grp n r => nested r /\ ~ In n (map fst (groups r))
  | Star r | Plus r | Opt r => nested r
  | Seq a b | Alt a b => nested a /\ nested b
  | _ => True
  end.
Lemma ent_app : forall n a b, entered n (a ++ b) = match entered n a with Some x => Some x | None => entered n b end.
Proof. intros n a b. induction a as [|[m i|m i] a IH]; cbn [app entered]; auto. destruct (m =? n); auto. Qed.
Lemma lef_app : forall n a b, left_at n (a ++ b) = match left_at n a with Some x => Some x | None => left_at n b end.
Proof. intros n a b. induction a as [|[m i|m i] a IH]; cbn [app left_at]; auto. destruct (m =? n); auto. Qed.
Definition span (s : str) (r : re) (n : nat) (i j : nat) (e : list ev) : Prop :=
  (entered n e = None /\ left_at n e = None) \/
  (exists a b body, entered n e = Some a /\ left_at n e = Some b /\ i <= a /\ a <= b /\ b <= j /\ In (n, body) (groups r) /\ matches s body a b).
Lemma span_none : forall s r n i j, span s r n i j []. Proof. intros. left. auto. Qed.
Lemma span_weaken : forall s r r' n i i' j j' e, span s r n i j e -> incl (groups r) (groups r') -> i' <= i -> j <= j' -> span s r' n i' j' e.
Proof. intros s r r' n i i' j j' e [H|(a & b & body & H1 & H2 & H3 & H4 & H5 & H6 & H7)] I0 L1 L2; [now left|]. right. exists a, b, body. repeat split; auto; lia. Qed.
Lemma span_app : forall s r n i j e1 e2, span s r n i j e1 -> span s r n i j e2 -> span s r n i j (e2 ++ e1).
Proof.
  intros s r n i j e1 e2 H1 [[E1 E2]|(a & b & body & H)].
  - unfold span in *. rewrite ent_app, lef_app, E1, E2. exact H1.
  - right. exists a, b, body. rewrite ent_app, lef_app. destruct H as (-> & -> & H). auto.
Qed.
Lemma ways_span : forall s r, nested r -> forall n i j e, i <= length s -> In (j, e) (ways s r i) -> span s r n i j e.
Proof.
  intros s r. induction r as [| | | |neg cs|c|m r IH|r IH|r IH|r IH|a IHa b IHb|a IHa b IHb]; intros NE n i j e Hi H; pose proof (ways_sound _ _ _ _ _ Hi H) as M; cbn [ways nested] in *.
  - destruct H as [E|[]]. injection E as <- <-. apply span_none.
  - destruct (i =? 0); [|destruct H]. destruct H as [E|[]]. injection E as <- <-. apply span_none.
  - destruct (_ <=? i); [|destruct H]. destruct H as [E|[]]. injection E as <- <-. apply span_none.
  - apply in_one_char in H. destruct H as (-> & -> & _). apply span_none.
  - apply in_one_char in H. destruct H as (-> & -> & _). apply span_none.
  - apply in_one_char in H. destruct H as (-> & -> & _). apply span_none.
  - destruct NE as [NE NI]. apply in_map_iff in H. destruct H as ((j' & e') & E & H). injection E as <- <-.
    pose proof (IH NE n i j' e' Hi H) as SP. pose proof (ways_sound _ _ _ _ _ Hi H) as M'. pose proof (m_mono _ _ _ _ M').
    destruct (Nat.eq_dec m n) as [->|NQ].
    + destruct SP as [[E1 E2]|(a & b & body & _ & _ & _ & _ & _ & I1 & _)]; [|elim NI; change n with (fst (n, body)); now apply in_map].
      right. exists i, j', r. cbn [entered left_at]. rewrite Nat.eqb_refl, ent_app, E1. cbn [entered]. rewrite Nat.eqb_refl. repeat split; auto. now left.
    + assert (EQ : entered n (Leave m j' :: e' ++ [Enter m i]) = entered n e' /\ left_at n (Leave m j' :: e' ++ [Enter m i]) = left_at n e').
      { cbn [entered left_at]. rewrite ent_app, lef_app. cbn [entered left_at]. rewrite (proj2 (Nat.eqb_neq m n) NQ). split; [destruct (entered n e')|destruct (left_at n e')]; reflexivity. }
      unfold span. rewrite (proj1 EQ), (proj2 EQ). apply (span_weaken s r (Grp m r) n i i j' j' e' SP); [|lia|lia]. intros x Hx. now right.
  - assert (A : forall k i j e, i <= length s -> In (j, e) (repeat_ways k (ways s r) i) -> i <= j /\ span s r n i j e).
    { induction k as [|k IHk]; intros i0 j0 e0 Hi0 H0; cbn [repeat_ways] in H0.
      - destruct H0 as [E|[]]. injection E as <- <-. split; [lia|apply span_none].
      - apply in_app_or in H0. destruct H0 as [H0|[E|[]]]; [|injection E as <- <-; split; [lia|apply span_none]].
        apply in_wt in H0. destruct H0 as (m & e1 & e2 & I1 & I2 & ->). pose proof (ways_sound _ _ _ _ _ Hi0 I1) as M1. pose proof (m_mono _ _ _ _ M1). pose proof (m_bound _ _ _ _ M1 Hi0).
        destruct (IHk _ _ _ H1 I2) as [L1 S2]. split; [lia|]. apply span_app; [apply (span_weaken s r r n i0 i0 m j0); [now apply IH|apply incl_refl|lia|lia]|apply (span_weaken s r r n m i0 j0 j0); [exact S2|apply incl_refl|lia|lia]]. }
    apply A in H; [|exact Hi]. exact (proj2 H).
  - assert (A : forall k i j e, i <= length s -> In (j, e) (repeat_ways k (ways s r) i) -> i <= j /\ span s r n i j e).
    { induction k as [|k IHk]; intros i0 j0 e0 Hi0 H0; cbn [repeat_ways] in H0.
      - destruct H0 as [E|[]]. injection E as <- <-. split; [lia|apply span_none].
      - apply in_app_or in H0. destruct H0 as [H0|[E|[]]]; [|injection E as <- <-; split; [lia|apply span_none]].
        apply in_wt in H0. destruct H0 as (m & e1 & e2 & I1 & I2 & ->). pose proof (ways_sound _ _ _ _ _ Hi0 I1) as M1. pose proof (m_mono _ _ _ _ M1). pose proof (m_bound _ _ _ _ M1 Hi0).
        destruct (IHk _ _ _ H1 I2) as [L1 S2]. split; [lia|]. apply span_app; [apply (span_weaken s r r n i0 i0 m j0); [now apply IH|apply incl_refl|lia|lia]|apply (span_weaken s r r n m i0 j0 j0); [exact S2|apply incl_refl|lia|lia]]. }
    apply in_wt in H. destruct H as (m & e1 & e2 & I1 & I2 & ->). pose proof (ways_sound _ _ _ _ _ Hi I1) as M1. pose proof (m_mono _ _ _ _ M1). pose proof (m_bound _ _ _ _ M1 Hi).
    destruct (A _ _ _ _ H0 I2) as [L1 S2]. apply span_app; [apply (span_weaken s r _ n i i m j); [now apply IH|apply incl_refl|lia|lia]|apply (span_weaken s r _ n m i j j); [exact S2|apply incl_refl|lia|lia]].
  - apply in_app_or in H. destruct H as [H|[E|[]]]; [|injection E as <- <-; apply span_none]. apply (span_weaken s r _ n i i j j); [now apply IH|apply incl_refl|lia|lia].
  - destruct NE as [NA NB]. apply in_wt in H. destruct H as (m & e1 & e2 & I1 & I2 & ->). pose proof (ways_sound _ _ _ _ _ Hi I1) as M1. pose proof (m_mono _ _ _ _ M1). pose proof (m_bound _ _ _ _ M1 Hi) as Hm. pose proof (m_mono _ _ _ _ (ways_sound _ _ _ _ _ Hm I2)).
    apply span_app; [apply (span_weaken s a _ n i i m j); [now apply IHa|apply incl_appl, incl_refl|lia|lia]|apply (span_weaken s b _ n m i j j); [now apply IHb|apply incl_appr, incl_refl|lia|lia]].
  - destruct NE as [NA NB]. apply in_app_or in H. destruct H as [H|H].
    + apply (span_weaken s a _ n i i j j); [now apply IHa|apply incl_appl, incl_refl|lia|lia].
    + apply (span_weaken s b _ n i i j j); [now apply IHb|apply incl_appr, incl_refl|lia|lia].
Qed.
(** Groups of the grammar are numbered in order. *)
Definition numbered (lo hi : nat) (r : re) : Prop := lo <= hi /\ forall n b, In (n, b) (groups r) -> lo <= n < hi.
Lemma g_numbered : (forall n t r n', g_alt n t r n' -> numbered n n' r /\ nested r) /\ (forall n t r n', g_branch n t r n' -> numbered n n' r /\ nested r) /\
  (forall n t r n', g_piece n t r n' -> numbered n n' r /\ nested r) /\ (forall n t r n', g_atom n t r n' -> numbered n n' r /\ nested r).
Proof.
  assert (NIL : forall n r, groups r = [] -> numbered n n r) by (intros n r E; split; [lia|]; rewrite E; intros ? ? []).
  assert (APP : forall n n1 n2 a b r, numbered n n1 a -> numbered n1 n2 b -> groups r = groups a ++ groups b -> numbered n n2 r).
  { intros n n1 n2 a b r [L1 A1] [L2 A2] E. split; [lia|]. rewrite E. intros m x I0. apply in_app_or in I0. destruct I0 as [I0|I0]; [apply A1 in I0|apply A2 in I0]; lia. }
  apply g_ind4; intros; cbn [nested];
    try assumption; try (split; [now apply NIL|exact I]);
    try (match goal with A : numbered _ _ ?a /\ _, B : numbered _ _ ?b /\ _ |- numbered _ _ ?r /\ _ => destruct A as [A0 A1], B as [B0 B1]; split; [exact (APP _ _ _ a b r A0 B0 eq_refl)|split; assumption] end).
  destruct H1 as [[L1 A1] NE]. split; [|split; [exact NE|]].
    + split; [lia|]. intros m b [E|I0]; [injection E as <- <-; lia|]. apply A1 in I0. lia.
    + intro I0. apply in_map_iff in I0. destruct I0 as ((m & b) & E & I0). cbn in E. subst m. apply A1 in I0. lia.
Qed.
