(** DateProps.v -- property C130: ConvertDateMacroString and ConvertTimeStampMacroString. *)
From Coq Require Import List Ascii Bool Arith Lia ZArith.
Import ListNotations.
From Verif Require Import Base DateModel DateSpec.

Lemma text_str s r : ~ In NUL s -> text_at (map Some s ++ Some NUL :: r) = Ret s.
Proof.
  induction s as [|c s IH]; intro N; [reflexivity|]. cbn [map app text_at]. destruct (Ascii.eqb_spec c NUL) as [->|]; [elim N; now left|]. rewrite IH; [reflexivity|]. intro I. apply N. now right.
Qed.
Lemma put_in s r k c : k < length s -> put (map Some s ++ r) k c = map Some (firstn k s) ++ Some c :: map Some (skipn (S k) s) ++ r.
Proof.
  revert k. induction s as [|x s IH]; intros k H; [cbn in H; lia|]. destruct k as [|k]; [reflexivity|]. cbn [map app put firstn]. rewrite IH by (cbn in H; lia). reflexivity.
Qed.
Lemma put_length b k c : length (put b k c) = length b.
Proof. revert k. induction b as [|x b IH]; intros [|k]; cbn; auto. Qed.
Lemma put_nth b k c i : i <> k -> nth_error (put b k c) i = nth_error b i.
Proof. revert k i. induction b as [|x b IH]; intros [|k] [|i] H; cbn; try reflexivity; try congruence. apply IH. lia. Qed.
Lemma put_skip b k c j : k < j -> skipn j (put b k c) = skipn j b.
Proof. revert k j. induction b as [|x b IH]; intros [|k] [|j] H; cbn; try reflexivity; try lia. apply IH. lia. Qed.
Lemma cpy_skip n s j : j <= length s -> skipn j (strcpy n s) = map Some (skipn j s) ++ Some NUL :: repeat None (n - S (length s)).
Proof. intro H. unfold strcpy. rewrite skipn_app, map_length. replace (j - length s) with 0 by lia. cbn [skipn]. rewrite <- skipn_map. reflexivity. Qed.
Lemma cpy_beyond n s j : length s < j -> j < n -> exists r, skipn j (strcpy n s) = None :: r.
Proof.
  intros H1 H2. unfold strcpy. rewrite skipn_app, map_length. rewrite skipn_all2 by (rewrite map_length; lia). cbn [app]. destruct (j - length s) as [|k] eqn:E; [lia|]. cbn [skipn].
  exists (repeat None (n - S (length s) - k - 1)). assert (Q : n - S (length s) = k + S (n - S (length s) - k - 1)) by lia. rewrite Q at 1. rewrite repeat_app, skipn_app, repeat_length, Nat.sub_diag. rewrite skipn_all2 by (rewrite repeat_length; lia). reflexivity.
Qed.
Lemma no_nul_sub s j : ~ In NUL s -> ~ In NUL (skipn j s).
Proof. intros N I. apply N. rewrite <- (firstn_skipn j s). apply in_or_app. auto. Qed.
Lemma no_nul_fst s j : ~ In NUL s -> ~ In NUL (firstn j s).
Proof. intros N I. apply N. rewrite <- (firstn_skipn j s). apply in_or_app. auto. Qed.
(** The text from place j on, after byte k was set to NUL. *)
Lemma after n s k j : ~ In NUL s -> k < j -> j < n -> text_at (skipn j (put (strcpy n s) k NUL)) = if j <=? length s then Ret (skipn j s) else Undef.
Proof.
  intros N H1 H2. rewrite put_skip by exact H1. destruct (Nat.leb_spec j (length s)) as [L1|L1].
  - rewrite cpy_skip by exact L1. apply text_str. now apply no_nul_sub.
  - destruct (cpy_beyond n s j L1 H2) as (r & ->). reflexivity.
Qed.
(** The text from place j to byte k. *)
Lemma before n s k j : ~ In NUL s -> j <= k -> k < n -> text_at (skipn j (put (strcpy n s) k NUL)) = if j <=? length s then Ret (firstn (k - j) (skipn j s)) else if j <? k then Undef else Ret [].
Proof.
  intros N H1 H2. destruct (le_lt_dec (length s) k) as [Lk|Lk].
  - destruct (Nat.leb_spec j (length s)) as [L1|L1].
    + rewrite (firstn_all2 (n := k - j)) by (rewrite skipn_length; lia).
      assert (E : exists r, skipn j (put (strcpy n s) k NUL) = map Some (skipn j s) ++ Some NUL :: r).
      { unfold strcpy. clear N H2. revert j k L1 Lk H1. induction s as [|x s IH]; intros j k L1 Lk H1.
        - cbn in L1. assert (j = 0) by lia. subst j. destruct k; eexists; reflexivity.
        - destruct k as [|k]; [cbn in Lk; lia|]. destruct j as [|j].
          + destruct (IH 0 k ltac:(lia) ltac:(cbn in Lk; lia) ltac:(lia)) as (r & E). cbn [skipn map app put] in E |- *. cbn [length Nat.sub] in E |- *. clear IH.
            assert (G : forall t m k, length t <= k -> exists r, put (map Some t ++ Some NUL :: repeat None m) k NUL = map Some t ++ Some NUL :: r).
            { clear. induction t as [|y t IH]; intros m k H; [destruct k; eexists; reflexivity|]. destruct k as [|k]; [cbn in H; lia|]. destruct (IH m k ltac:(cbn in H; lia)) as (r & E). exists r. cbn [map app put]. now rewrite E. }
            destruct (G s (n - S (S (length s))) k ltac:(cbn in Lk; lia)) as (r' & ->). exists r'. reflexivity.
          + cbn [skipn map app put length]. clear IH.
            assert (G : forall t m k, length t <= k -> exists r, put (map Some t ++ Some NUL :: repeat None m) k NUL = map Some t ++ Some NUL :: r).
            { clear. induction t as [|y t IH]; intros m k0 H; [destruct k0; eexists; reflexivity|]. destruct k0 as [|k0]; [cbn in H; lia|]. destruct (IH m k0 ltac:(cbn in H; lia)) as (r & E). exists r. cbn [map app put]. now rewrite E. }
            destruct (G s (n - S (S (length s))) k ltac:(cbn in Lk; lia)) as (r' & ->). exists r'. rewrite skipn_app, map_length. replace (j - length s) with 0 by (cbn in L1; lia). cbn [skipn]. now rewrite skipn_map. }
      destruct E as (r & ->). apply text_str. now apply no_nul_sub.
    + destruct (Nat.ltb_spec j k) as [L2|L2].
      * destruct (cpy_beyond n s j L1 ltac:(lia)) as (r & E). assert (Q : nth_error (put (strcpy n s) k NUL) j = Some None).
        { rewrite put_nth by lia. replace j with (j + 0) by lia. rewrite <- (firstn_skipn j (strcpy n s)) at 1. rewrite E. rewrite nth_error_app2; rewrite firstn_length; [|lia]. assert (j < length (strcpy n s)). { assert (Z : length (skipn j (strcpy n s)) = S (length r)) by (rewrite E; reflexivity). rewrite skipn_length in Z. lia. } replace (j + 0 - min j (length (strcpy n s))) with 0 by lia. reflexivity. }
        destruct (nth_error_split _ _ Q) as (l1 & l2 & E1 & E2). rewrite E1. rewrite skipn_app, E2, skipn_all2 by lia. rewrite <- E2, Nat.sub_diag. reflexivity.
      * assert (j = k) by lia. subst j. assert (LL : k < length (strcpy n s)) by (unfold strcpy; rewrite !app_length, map_length, repeat_length; cbn; lia).
        clear - LL. revert k LL. induction (strcpy n s) as [|x b IH]; intros k LL; [cbn in LL; lia|]. destruct k as [|k]; [reflexivity|]. cbn [put skipn]. apply IH. cbn in LL. lia.
  - replace (j <=? length s) with true by (symmetry; apply Nat.leb_le; lia). unfold strcpy. rewrite put_in by exact Lk. rewrite skipn_app, map_length, firstn_length. replace (j - min k (length s)) with 0 by lia. rewrite skipn_map. rewrite skipn_O. rewrite skipn_firstn_comm. apply text_str. apply no_nul_fst. now apply no_nul_sub.
Qed.
Lemma prefix_spec n h : is_prefix n h = true <-> exists b, h = n ++ b.
Proof.
  revert h. induction n as [|c n IH]; intro h; cbn [is_prefix]; [split; [intros _; exists h; reflexivity|auto]|]. destruct h as [|d h]; [split; [discriminate|intros (b & H); discriminate]|]. rewrite andb_true_iff, IH. split.
  - intros (E & b & ->). apply Ascii.eqb_eq in E. subst. exists b. reflexivity.
  - intros (b & H). injection H as -> ->. split; [apply Ascii.eqb_refl|eauto].
Qed.
Lemma strstr_spec h n : match strstr h n with Some k => first_at h n k | None => ~ occurs h n end.
Proof.
  induction h as [|c h IH]; cbn [strstr].
  - destruct (is_prefix n []) eqn:E; [apply prefix_spec in E; destruct E as (b & E); split; [exists [], b; auto|intros; lia]|]. intros (a & b & H). destruct a; [|discriminate]. assert (is_prefix n [] = true) by (apply prefix_spec; eauto). congruence.
  - destruct (is_prefix n (c :: h)) eqn:E; [apply prefix_spec in E; destruct E as (b & E); split; [exists [], b; auto|intros; lia]|].
    assert (NP : forall b, c :: h <> n ++ b) by (intros b H; assert (is_prefix n (c :: h) = true) by (apply prefix_spec; eauto); congruence).
    destruct (strstr h n) as [k|].
    + destruct IH as ((a & b & -> & Hk) & M). split; [exists (c :: a), b; split; [reflexivity|cbn; lia]|]. intros a' b' H. destruct a' as [|x a']; [elim (NP b' H)|]. injection H as <- H. specialize (M _ _ H). cbn. lia.
    + intros (a & b & H). destruct a as [|x a]; [elim (NP b H)|]. injection H as <- H. apply IH. exists a, b. exact H.
Qed.
Lemma first_unique h n k k' : first_at h n k -> first_at h n k' -> k = k'.
Proof. intros ((a & b & E & <-) & M) ((a' & b' & E' & <-) & M'). apply Nat.le_antisymm; [apply (M _ _ E')|apply (M' _ _ E)]. Qed.

Section M.
Context (mktime : tm -> Z).
(** What happens with any text of at most eleven characters. *)
Theorem C130_date : forall s, ~ In NUL s -> length s <= 11 ->
  (~ occurs month_names (firstn 3 s) -> convert_date mktime (Some s) true = Ret None) /\
  (forall k, first_at month_names (firstn 3 s) k -> convert_date mktime (Some s) true =
     if 7 <=? length s then Ret (Some (mktime (Tm (atoi_text (skipn 7 s) - 1900) (Z.of_nat (k / 3)) (atoi_text (skipn 4 s)) 0 0 0))) else Undef).
Proof.
  intros s N Ls. assert (E : text_at (put (strcpy 12 s) 3 NUL) = Ret (firstn 3 s)).
  { pose proof (before 12 s 3 0 N ltac:(lia) ltac:(lia)) as B. cbn [skipn Nat.leb Nat.sub] in B. exact B. }
  unfold convert_date. replace (11 <? length s) with false by (symmetry; apply Nat.ltb_ge; exact Ls). cbn [negb orb]. rewrite E. pose proof (strstr_spec month_names (firstn 3 s)) as P. unfold atoi. rewrite !after by (auto; lia).
  destruct (strstr month_names (firstn 3 s)) as [p|].
  - split; [intro H; elim H; destruct P as ((a & b & Q & _) & _); exists a, b; exact Q|]. intros k K. rewrite (first_unique _ _ _ _ K P). destruct (Nat.leb_spec 7 (length s)) as [G|G].
    + replace (4 <=? length s) with true by (symmetry; apply Nat.leb_le; lia). reflexivity.
    + destruct (4 <=? length s); reflexivity.
  - split; [reflexivity|]. intros k ((a & b & Q & _) & _). elim P. exists a, b. exact Q.
Qed.
Theorem C130_timestamp : forall s, ~ In NUL s -> length s <= 26 ->
  (length s < 4 -> convert_timestamp mktime (Some s) true = Undef) /\
  (4 <= length s -> ~ occurs month_names (firstn 3 (skipn 4 s)) -> convert_timestamp mktime (Some s) true = Ret None) /\
  (forall k, 4 <= length s -> first_at month_names (firstn 3 (skipn 4 s)) k -> convert_timestamp mktime (Some s) true =
     if 20 <=? length s then Ret (Some (mktime (Tm (atoi_text (skipn 20 s) - 1900) (Z.of_nat (k / 3)) (atoi_text (skipn 8 s)) (atoi_text (skipn 11 s)) (atoi_text (skipn 14 s)) (atoi_text (skipn 17 s))))) else Undef).
Proof.
  intros s N Ls. pose proof (before 27 s 7 4 N ltac:(lia) ltac:(lia)) as E. change (7 - 4) with 3 in E. change (4 <? 7) with true in E.
  unfold convert_timestamp. replace (26 <? length s) with false by (symmetry; apply Nat.ltb_ge; exact Ls). cbn [negb orb]. rewrite E. clear E. unfold atoi. rewrite !after by (auto; lia).
  destruct (Nat.leb_spec 4 (length s)) as [G4|G4]; [|split; [reflexivity|split; intros; lia]]. split; [lia|].
  pose proof (strstr_spec month_names (firstn 3 (skipn 4 s))) as P. destruct (strstr month_names (firstn 3 (skipn 4 s))) as [p|].
  - split; [intros _ H; elim H; destruct P as ((a & b & Q & _) & _); exists a, b; exact Q|]. intros k _ K. rewrite (first_unique _ _ _ _ K P). destruct (Nat.leb_spec 20 (length s)) as [G|G].
    + replace (8 <=? length s) with true by (symmetry; apply Nat.leb_le; lia). replace (11 <=? length s) with true by (symmetry; apply Nat.leb_le; lia). replace (14 <=? length s) with true by (symmetry; apply Nat.leb_le; lia). replace (17 <=? length s) with true by (symmetry; apply Nat.leb_le; lia). reflexivity.
    + destruct (8 <=? length s), (11 <=? length s), (14 <=? length s), (17 <=? length s); reflexivity.
  - split; [reflexivity|]. intros k _ ((a & b & Q & _) & _). elim P. exists a, b. exact Q.
Qed.
(** NULL arguments and longer texts are refused. *)
Theorem C130_refused : forall s t, (convert_date mktime None t = Ret None /\ convert_date mktime s false = Ret None /\ forall x, 11 < length x -> convert_date mktime (Some x) t = Ret None) /\
  (convert_timestamp mktime None t = Ret None /\ convert_timestamp mktime s false = Ret None /\ forall x, 26 < length x -> convert_timestamp mktime (Some x) t = Ret None).
Proof.
  intros s t. unfold convert_date, convert_timestamp. split; (split; [reflexivity|]); (split; [destruct s; reflexivity|]); intros x H; apply Nat.ltb_lt in H; rewrite H, orb_true_r; reflexivity.
Qed.
(** The numbers. *)
Lemma dig_at a x : dig a x -> is_digit x = true /\ digit x = Z.of_nat a /\ is_space x = false /\ x <> NUL /\ Ascii.eqb x "-" = false /\ Ascii.eqb x "+" = false.
Proof.
  unfold dig. do 10 (destruct a as [|a]; [cbn; intro H; injection H as <-; repeat split; discriminate|]). destruct a; discriminate.
Qed.
Lemma atoi_two n s r : two n s -> match r with c :: _ => is_digit c = false | [] => True end -> atoi_text (s ++ r) = Z.of_nat n.
Proof.
  intros (a & b & x & y & -> & Y & -> & X) R. destruct (dig_at b y Y) as (D1 & D2 & D3 & _ & D4 & D5).
  assert (F : forall v, digits v r = v) by (destruct r as [|c r]; cbn; [auto|rewrite R; auto]). unfold atoi_text. cbn [app]. destruct X as [X|(-> & ->)].
  - destruct (dig_at a x X) as (E1 & E2 & E3 & _ & E4 & E5). cbn [drop_while]. rewrite E3, E4, E5. cbn [digits]. rewrite E1, D1, F, E2, D2. lia.
  - cbn [drop_while]. change (is_space " ") with true. cbn iota. rewrite D3, D4, D5. cbn [digits]. rewrite D1, F, D2. lia.
Qed.
Lemma atoi_four n s r : four n s -> match r with c :: _ => is_digit c = false | [] => True end -> atoi_text (s ++ r) = Z.of_nat n.
Proof.
  intros (a & b & c & d & x & y & z & w & -> & X & Y & Z1 & W & ->) R. destruct (dig_at a x X) as (A1 & A2 & A3 & _ & A4 & A5). destruct (dig_at b y Y) as (B1 & B2 & _). destruct (dig_at c z Z1) as (C1 & C2 & _). destruct (dig_at d w W) as (D1 & D2 & _).
  assert (F : forall v, digits v r = v) by (destruct r as [|q r]; cbn; [auto|rewrite R; auto]). unfold atoi_text. cbn [app drop_while]. rewrite A3, A4, A5. cbn [digits]. rewrite A1, B1, C1, D1, F, A2, B2, C2, D2. lia.
Qed.
Lemma two_nul n s : two n s -> length s = 2 /\ ~ In NUL s.
Proof. intros (a & b & x & y & -> & Y & _ & X). split; [reflexivity|]. destruct (dig_at b y Y) as (_ & _ & _ & D & _). intros [H|[H|[]]]; [|congruence]. destruct X as [X|(_ & X)]; [destruct (dig_at a x X) as (_ & _ & _ & E & _); congruence|rewrite X in H; discriminate]. Qed.
Lemma four_nul n s : four n s -> length s = 4 /\ ~ In NUL s.
Proof. intros (a & b & c & d & x & y & z & w & -> & X & Y & Z1 & W & _). split; [reflexivity|]. intros [H|[H|[H|[H|[]]]]]; subst; match goal with H : dig _ NUL |- _ => destruct (dig_at _ _ H) as (_ & _ & _ & E & _); congruence end. Qed.
Lemma month_at m mon : nth_error months m = Some mon -> length mon = 3 /\ ~ In NUL mon /\ strstr month_names mon = Some (3 * m).
Proof.
  do 12 (destruct m as [|m]; [intro H; injection H as <-; split; [reflexivity|]; split; [intros I; repeat (destruct I as [I|I]; [discriminate I|]); exact I|reflexivity]|]). destruct m; discriminate.
Qed.
Lemma first_of_strstr h n k : strstr h n = Some k -> first_at h n k.
Proof. intro E. pose proof (strstr_spec h n) as P. rewrite E in P. exact P. Qed.
(** __DATE__ *)
Theorem C130_date_macro : forall m mon d dd y yyyy, nth_error months m = Some mon -> two d dd -> four y yyyy ->
  convert_date mktime (Some (mon ++ L " " ++ dd ++ L " " ++ yyyy)) true = Ret (Some (mktime (Tm (Z.of_nat y - 1900) (Z.of_nat m) (Z.of_nat d) 0 0 0))).
Proof.
  intros m mon d dd y yyyy M D Y. destruct (month_at m mon M) as (L1 & N1 & S1). destruct (two_nul _ _ D) as (L2 & N2). destruct (four_nul _ _ Y) as (L3 & N3). set (s := mon ++ L " " ++ dd ++ L " " ++ yyyy).
  assert (N : ~ In NUL s) by (unfold s; intro I; repeat (apply in_app_or in I; destruct I as [I|I]; [solve [tauto|destruct I as [I|[]]; discriminate I]|]); tauto).
  assert (Ls : length s = 11) by (unfold s; rewrite !app_length, L1, L2, L3; reflexivity).
  destruct (C130_date s N ltac:(lia)) as (_ & C). assert (F3 : firstn 3 s = mon) by (unfold s; rewrite firstn_app, L1, Nat.sub_diag; rewrite <- L1, firstn_all; apply app_nil_r).
  rewrite (C (3 * m)) by (rewrite F3; now apply first_of_strstr). rewrite Ls. cbn [Nat.leb].
  assert (K4 : skipn 4 s = dd ++ L " " ++ yyyy). { unfold s. destruct mon as [|q1 [|q2 [|q3 [|]]]]; try discriminate. reflexivity. }
  assert (K7 : skipn 7 s = yyyy ++ []). { unfold s. destruct mon as [|q1 [|q2 [|q3 [|]]]]; try discriminate. destruct dd as [|e1 [|e2 [|]]]; try discriminate. rewrite app_nil_r. reflexivity. }
  rewrite K4, K7. rewrite (atoi_two d dd) by (exact D || reflexivity). rewrite (atoi_four y yyyy) by (exact Y || exact I). rewrite Nat.mul_comm, Nat.div_mul by discriminate. reflexivity.
Qed.
(** __TIMESTAMP__ *)
Theorem C130_timestamp_macro : forall ddd m mon d dd h hh mi mm sec ss y yyyy, length ddd = 3 -> ~ In NUL ddd -> nth_error months m = Some mon -> two d dd -> two h hh -> two mi mm -> two sec ss -> four y yyyy ->
  convert_timestamp mktime (Some (ddd ++ L " " ++ mon ++ L " " ++ dd ++ L " " ++ hh ++ L ":" ++ mm ++ L ":" ++ ss ++ L " " ++ yyyy)) true =
  Ret (Some (mktime (Tm (Z.of_nat y - 1900) (Z.of_nat m) (Z.of_nat d) (Z.of_nat h) (Z.of_nat mi) (Z.of_nat sec)))).
Proof.
  intros ddd m mon d dd h hh mi mm sec ss y yyyy L0 N0 M D H MI SE Y. destruct (month_at m mon M) as (L1 & N1 & S1). destruct (two_nul _ _ D) as (L2 & N2). destruct (four_nul _ _ Y) as (L3 & N3). destruct (two_nul _ _ H) as (L4 & N4). destruct (two_nul _ _ MI) as (L5 & N5). destruct (two_nul _ _ SE) as (L6 & N6).
  set (s := ddd ++ L " " ++ mon ++ L " " ++ dd ++ L " " ++ hh ++ L ":" ++ mm ++ L ":" ++ ss ++ L " " ++ yyyy).
  assert (N : ~ In NUL s) by (unfold s; intro I; repeat (apply in_app_or in I; destruct I as [I|I]; [solve [tauto|destruct I as [I|[]]; discriminate I]|]); tauto).
  assert (Ls : length s = 24) by (unfold s; rewrite !app_length, L0, L1, L2, L3, L4, L5, L6; reflexivity).
  destruct (C130_timestamp s N ltac:(lia)) as (_ & _ & C).
  assert (K : firstn 3 (skipn 4 s) = mon /\ skipn 8 s = dd ++ L " " ++ hh ++ L ":" ++ mm ++ L ":" ++ ss ++ L " " ++ yyyy /\ skipn 11 s = hh ++ L ":" ++ mm ++ L ":" ++ ss ++ L " " ++ yyyy /\ skipn 14 s = mm ++ L ":" ++ ss ++ L " " ++ yyyy /\ skipn 17 s = ss ++ L " " ++ yyyy /\ skipn 20 s = yyyy ++ []).
  { unfold s. rewrite app_nil_r. destruct ddd as [|w1 [|w2 [|w3 [|]]]]; try discriminate. destruct mon as [|q1 [|q2 [|q3 [|]]]]; try discriminate. destruct dd as [|e1 [|e2 [|]]]; try discriminate. destruct hh as [|f1 [|f2 [|]]]; try discriminate. destruct mm as [|g1 [|g2 [|]]]; try discriminate. destruct ss as [|h1 [|h2 [|]]]; try discriminate. repeat split. }
  destruct K as (K4 & K8 & K11 & K14 & K17 & K20). rewrite (C (3 * m)); [|lia|rewrite K4; now apply first_of_strstr]. rewrite Ls. cbn [Nat.leb]. rewrite K8, K11, K14, K17, K20.
  rewrite (atoi_two d dd) by (exact D || reflexivity). rewrite (atoi_two h hh) by (exact H || reflexivity). rewrite (atoi_two mi mm) by (exact MI || reflexivity). rewrite (atoi_two sec ss) by (exact SE || reflexivity). rewrite (atoi_four y yyyy) by (exact Y || exact I). rewrite Nat.mul_comm, Nat.div_mul by discriminate. reflexivity.
Qed.
(** A text that is no date is accepted, and a short one leads to reading bytes
    that were not initialised. *)
Theorem C130_no_date_refuted : convert_date mktime (Some (L "anF 99 zz")) true = Ret (Some (mktime (Tm (-1900) 0 99 0 0 0))) /\
  convert_date mktime (Some (L "Jan")) true = Undef /\ convert_date mktime (Some []) true = Undef /\ convert_timestamp mktime (Some (L "Fri")) true = Undef.
Proof. split; [reflexivity|]. split; [reflexivity|]. split; reflexivity. Qed.
End M.
(** The numbers are read as atoi reads them: blanks, a sign, the digits up to the
    first byte that is none. *)
Theorem C130_numbers : forall bl ds r, Forall (fun c => is_space c = true) bl -> Forall (fun c => is_digit c = true) ds ->
  match r with c :: _ => is_digit c = false | [] => True end ->
  let v := fold_left (fun v c => 10 * v + (Z.of_N (N_of_ascii c) - 48))%Z ds 0%Z in
  (ds <> [] -> atoi_text (bl ++ ds ++ r) = v) /\ atoi_text (bl ++ "+"%char :: ds ++ r) = v /\ atoi_text (bl ++ "-"%char :: ds ++ r) = (- v)%Z.
Proof.
  intros bl ds r B D R. cbv zeta.
  assert (V : forall z, digits z (ds ++ r) = fold_left (fun v c => 10 * v + (Z.of_N (N_of_ascii c) - 48))%Z ds z).
  { induction ds as [|c ds IH]; intros z. { cbn. destruct r as [|c r]; cbn; [reflexivity|rewrite R; reflexivity]. }
    inversion D; subst. cbn [app digits fold_left]. rewrite H1, IH by assumption. f_equal. unfold digit. lia. }
  assert (W : forall s, match s with c :: _ => is_space c = false | [] => True end -> drop_while is_space (bl ++ s) = s).
  { intros s Hs. induction bl as [|c bl IH]; cbn [app drop_while]. { destruct s; cbn; [reflexivity|rewrite Hs; reflexivity]. } inversion B; subst. rewrite H1. apply IH. assumption. }
  unfold atoi_text. split; [|split].
  - intro NE. destruct ds as [|c ds]; [congruence|].
    assert (Hc : is_digit c = true) by (inversion D; assumption).
    assert (K : is_space c = false /\ Ascii.eqb c "-" = false /\ Ascii.eqb c "+" = false).
    { clear - Hc. destruct c as [[] [] [] [] [] [] [] []]; cbn in Hc; try discriminate Hc; repeat split; reflexivity. }
    destruct K as (K1 & K2 & K3). rewrite W by exact K1. cbn [app]. rewrite K2, K3. apply V.
  - rewrite W by reflexivity. cbn iota. apply V.
  - rewrite W by reflexivity. cbn iota. rewrite V. reflexivity.
Qed.
Print Assumptions C130_numbers.
Example C130_numbers_ex : atoi_text (L "  -12:30") = (-12)%Z /\ atoi_text (L "+7") = 7%Z.
Proof. split; reflexivity. Qed.
Print Assumptions C130_date. Print Assumptions C130_timestamp. Print Assumptions C130_refused. Print Assumptions C130_date_macro. Print Assumptions C130_timestamp_macro. Print Assumptions C130_no_date_refuted.
Example C130_ex : two 5 (L " 5") /\ two 19 (L "19") /\ four 2003 (L "2003") /\ nth_error months 11 = Some (L "Dec") /\
  convert_timestamp t_hour (Some (L "Fri Dec 19 14:34:58 2003")) true = Ret (Some 14%Z) /\ ~ occurs month_names (L "xyz").
Proof.
  split; [exists 0, 5, " "%char, "5"%char; split; [reflexivity|]; split; [reflexivity|]; split; [reflexivity|right; auto]|].
  split; [exists 1, 9, "1"%char, "9"%char; split; [reflexivity|]; split; [reflexivity|]; split; [reflexivity|left; reflexivity]|].
  split; [exists 2, 0, 0, 3, "2"%char, "0"%char, "0"%char, "3"%char; split; [reflexivity|]; do 4 (split; [reflexivity|]); reflexivity|].
  split; [reflexivity|]. split; [reflexivity|]. intro H. pose proof (strstr_spec month_names (L "xyz")) as P. change (strstr month_names (L "xyz")) with (@None nat) in P. exact (P H).
Qed.
