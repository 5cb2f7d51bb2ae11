(** RegexMatch2.v -- regmatch on the fragments of a program. *)
From Coq Require Import List Ascii Bool Arith Lia.
Import ListNotations.
From Verif Require Import Base RegexModel RegexSpec RegexAst RegexGen RegexGrammar RegexGrammar2 RegexCompile RegexLayout RegexWays RegexMatch.

Lemma skipn_cons : forall (s : str) i c, nth_error s i = Some c -> skipn i s = c :: skipn (S i) s.
Proof. induction s as [|a s IH]; intros [|i] c H; cbn in *; try discriminate; [congruence|]. now apply IH. Qed.
Lemma skipn_end : forall (s : str) i, nth_error s i = None -> skipn i s = [].
Proof. intros s i H. apply skipn_all2. now apply nth_error_None. Qed.
Lemma subj_some : forall s i c, nth_error s i = Some c -> subj s i = c.
Proof. intros. unfold subj. now apply nth_error_nth. Qed.
Lemma subj_none : forall s i, nth_error s i = None -> subj s i = NUL.
Proof. intros. unfold subj. apply nth_overflow. now apply nth_error_None. Qed.

Section F.
Context (s code : str) (SN : ~ In NUL s).
Notation real := (real s code).
Definition frag (p q : nat) (W : nat -> list way) : Prop :=
  q < length code -> forall i K, i <= length s -> (forall j e, In (j, e) (W i) -> real q j (K j)) -> real p i (ways_then (W i) K).
Definition wl (t : str) (i : nat) : list way := if is_prefix t (skipn i s) then [(i + length t, [])] else [].
Lemma wl_one : forall c i, c <> NUL -> wl [c] i = one_char s (Ascii.eqb c) i.
Proof.
  intros c i N. unfold wl, one_char. destruct (nth_error s i) as [d|] eqn:E.
  - rewrite (skipn_cons s i d E). cbn [is_prefix length]. destruct (Ascii.eqb c d); [|reflexivity]. cbn [andb]. rewrite Nat.add_1_r. reflexivity.
  - rewrite (skipn_end s i E). reflexivity.
Qed.
Lemma is_prefix_app2 : forall (a b x : str), is_prefix (a ++ b) x = (is_prefix a x && is_prefix b (skipn (length a) x))%bool.
Proof. induction a as [|c a IH]; intros b x; [reflexivity|]. destruct x as [|d x]; [reflexivity|]. cbn [app is_prefix length skipn]. rewrite IH. now rewrite andb_assoc. Qed.
Lemma ways_chars : forall t r i, ways s (chars_then t r) i = ways_then (wl t i) (ways s r).
Proof.
  induction t as [|c t IH]; intros r i.
  - cbn [chars_then fold_right]. unfold wl. cbn [is_prefix length]. rewrite Nat.add_0_r, wt_one. reflexivity.
  - change (chars_then (c :: t) r) with (Seq (Chr c) (chars_then t r)). cbn [ways]. unfold one_char, wl. destruct (nth_error s i) as [d|] eqn:E.
    + rewrite (skipn_cons s i d E). cbn [is_prefix length]. destruct (Ascii.eqb c d); [|reflexivity]. cbn [andb]. rewrite wt_one, IH. unfold wl. now rewrite Nat.add_succ_r.
    + rewrite (skipn_end s i E). reflexivity.
Qed.
Lemma frag_ext : forall p q W W', (forall i, W i = W' i) -> frag p q W -> frag p q W'.
Proof. intros p q W W' E F Hq i K Hi R. rewrite <- E in *. apply F; auto. Qed.

(** One-character nodes. *)
Lemma frag_char : forall p q f,
  (forall n i, regmatch s code (S n) (Some p) (mkG i BL BL) = if match nth_error s i with Some c => f c | None => false end then regmatch s code n (Some q) (mkG (S i) BL BL) else MRes false (mkG i BL BL)) ->
  frag p q (one_char s f).
Proof.
  intros p q f H Hq i K Hi R. unfold one_char in *. destruct (nth_error s i) as [c|] eqn:E; [destruct (f c) eqn:Q|].
  - rewrite wt_one. eapply real_step; [|apply (R (S i) []); now left]. intro n. rewrite H, E, Q. reflexivity.
  - apply real_fail. intro n. rewrite H, E, Q. eauto.
  - apply real_fail. intro n. rewrite H, E. eauto.
Qed.
Lemma eos_nth : forall i, (length s <=? i) = match nth_error s i with Some _ => false | None => true end.
Proof. intro i. destruct (nth_error s i) eqn:E; [apply Nat.leb_gt, nth_error_Some; congruence|apply Nat.leb_le; now apply nth_error_None]. Qed.
Definition wa (a : atom) : nat -> list way := match a with ALit t => wl t | _ => ways s (den_atom a) end.
Definition ch (a : atom) (c : ascii) : bool := match a with AAny => true | ACls neg _ cs => cls_ok neg cs c | ALit [x] => Ascii.eqb x c | _ => false end.
Lemma frag_leaf : forall a p q, wf_atom a -> (forall n l, a <> AGrp n l) -> at_atom code a p (Some q) -> frag p q (wa a).
Proof.
  intros a p q W NG A. destruct a as [| | |neg em cs|t|n l]; cbn [at_atom wa den_atom wf_atom] in *; [| | | | |now elim (NG n l)].
  - intros Hq i K Hi R. cbn [ways] in *. unfold is_node in A. destruct (Nat.eqb_spec i 0) as [->|Q].
    + rewrite wt_one. eapply real_step; [|apply (R 0 []); now left]. intro n. cbn [regmatch]. rewrite A. reflexivity.
    + apply real_fail. intro n. cbn [regmatch]. rewrite A. cbn [g_in]. cbn [Nat.eqb oBOL]. rewrite (proj2 (Nat.eqb_neq i 0) Q). eauto.
  - intros Hq i K Hi R. cbn [ways] in *. unfold is_node in A. destruct (length s <=? i) eqn:Q.
    + rewrite wt_one. eapply real_step; [|apply (R i []); now left]. intro n. cbn [regmatch]. rewrite A. cbn [g_in Nat.eqb oEOL oBOL]. rewrite Q. reflexivity.
    + apply real_fail. intro n. cbn [regmatch]. rewrite A. cbn [g_in Nat.eqb oEOL oBOL]. rewrite Q. eauto.
  - apply frag_char. intros n i. unfold is_node in A. cbn [regmatch]. rewrite A. cbn [g_in Nat.eqb oEOL oBOL oANY]. rewrite eos_nth. destruct (nth_error s i); [|reflexivity]. unfold set_in. cbn [g_start g_end]. now rewrite Nat.add_1_r.
  - destruct A as [A CS]. destruct W as [W _]. apply frag_char. intros n i. unfold is_node in A. cbn [regmatch]. rewrite A. cbn [g_in]. unfold cls_ok. destruct neg; cbn [Nat.eqb oEOL oBOL oANY oEXACTLY oANYOF oANYBUT]; rewrite CS, eos_nth; (destruct (nth_error s i) as [c|] eqn:E; [|reflexivity]); rewrite (subj_some s i c E), W; cbn [orb]; destruct (existsb _ cs); cbn [negb xorb]; try reflexivity; unfold set_in; cbn [g_start g_end]; now rewrite Nat.add_1_r.
  - destruct A as [A CS]. destruct W as [W1 W2]. destruct t as [|x t]; [congruence|]. assert (NX : x <> NUL) by (intros ->; apply W2; now left).
    intros Hq i K Hi R. unfold is_node in A. unfold wl in *. destruct (is_prefix (x :: t) (skipn i s)) eqn:P.
    + rewrite wt_one. eapply real_step; [|apply (R _ []); now left]. intro n. cbn [regmatch]. rewrite A. cbn [g_in Nat.eqb oEOL oBOL oANY oEXACTLY]. rewrite CS.
      assert (S1 : subj s i = x).
      { destruct (nth_error s i) as [d|] eqn:E; [|rewrite (skipn_end s i E) in P; discriminate]. rewrite (skipn_cons s i d E) in P. cbn [is_prefix] in P. apply andb_true_iff in P. destruct P as [P _]. apply Ascii.eqb_eq in P. subst d. now apply subj_some. }
      rewrite S1, Ascii.eqb_refl, P. cbn [negb]. rewrite andb_false_r. reflexivity.
    + apply real_fail. intro n. cbn [regmatch]. rewrite A. cbn [g_in Nat.eqb oEOL oBOL oANY oEXACTLY]. rewrite CS.
      destruct (Ascii.eqb_spec x (subj s i)) as [E|E]; [|cbn; eauto]. cbn [negb]. rewrite P. cbn [negb]. rewrite andb_true_r.
      destruct t as [|y t]; [|cbn; eauto]. exfalso. destruct (nth_error s i) as [d|] eqn:E2; [|rewrite (subj_none s i E2) in E; congruence].
      rewrite (skipn_cons s i d E2) in P. rewrite (subj_some s i d E2) in E. subst d. cbn [is_prefix] in P. rewrite Ascii.eqb_refl in P. discriminate.
Qed.
(** Repetition of a simple atom. *)
Lemma simple_ch : forall a, simple a = true -> wf_atom a -> forall i, ways s (den_atom a) i = one_char s (ch a) i.
Proof.
  intros a H W i. destruct a as [| | |neg em cs|t|n l]; try discriminate; cbn [den_atom ways ch] in *; [reflexivity|reflexivity|]. cbn [simple] in H. apply Nat.eqb_eq in H. destruct t as [|c [|d t]]; try discriminate. reflexivity.
Qed.
Lemma count_S : forall f i c, nth_error s i = Some c -> f c = true -> count_run f (skipn i s) = S (count_run f (skipn (S i) s)).
Proof. intros f i c E F. rewrite (skipn_cons s i c E). unfold count_run. cbn [take_while]. now rewrite F. Qed.
Lemma count_0 : forall f i, (forall c, nth_error s i = Some c -> f c = false) -> count_run f (skipn i s) = 0.
Proof.
  intros f i H. destruct (nth_error s i) as [c|] eqn:E; [|now rewrite (skipn_end s i E)]. rewrite (skipn_cons s i c E). unfold count_run. cbn [take_while]. now rewrite (H c eq_refl).
Qed.
Lemma count_le : forall f i, count_run f (skipn i s) <= length s - i.
Proof. intros f i. rewrite <- skipn_length. unfold count_run. generalize (skipn i s). intro l. induction l as [|c l IH]; [reflexivity|]. cbn [take_while]. destruct (f c); cbn [length]; lia. Qed.
Lemma lst_S : forall i m, lst 0 (S i) m ++ [(i, [])] = lst 0 i (S m).
Proof.
  intros i m. induction m as [|m IH].
  - cbn. rewrite Nat.add_0_r, Nat.add_1_r. reflexivity.
  - change (lst 0 (S i) (S m)) with ((S i + S m, @nil ev) :: lst 0 (S i) m). cbn [app]. rewrite IH. change (lst 0 i (S (S m))) with ((i + S (S m), @nil ev) :: lst 0 i (S m)). replace (S i + S m) with (i + S (S m)) by lia. reflexivity.
Qed.
Lemma lst1_S : forall i m, lst 1 i (S m) = lst 0 (S i) m.
Proof.
  intros i m. induction m as [|m IH].
  - cbn. rewrite Nat.add_0_r, Nat.add_1_r. reflexivity.
  - change (lst 1 i (S (S m))) with ((i + S (S m), @nil ev) :: lst 1 i (S m)). rewrite IH. change (lst 0 (S i) (S m)) with ((S i + S m, @nil ev) :: lst 0 (S i) m). replace (S i + S m) with (i + S (S m)) by lia. reflexivity.
Qed.
Lemma repeat_char : forall f k i, i <= length s -> length s - i <= k -> repeat_ways k (one_char s f) i = lst 0 i (count_run f (skipn i s)).
Proof.
  intros f k. induction k as [|k IH]; intros i Hi Hk.
  - rewrite count_0; [cbn; now rewrite Nat.add_0_r|]. intros c E. exfalso. assert (i < length s) by (apply nth_error_Some; congruence). lia.
  - cbn [repeat_ways]. unfold one_char at 1. destruct (nth_error s i) as [c|] eqn:E; [destruct (f c) eqn:Q|].
    + assert (i < length s) by (apply nth_error_Some; congruence). rewrite wt_one, IH by lia. rewrite (count_S f i c E Q). apply lst_S.
    + rewrite count_0 by congruence. cbn. now rewrite Nat.add_0_r.
    + rewrite count_0 by congruence. cbn. now rewrite Nat.add_0_r.
Qed.
Lemma in_lst : forall min i no d, min <= d <= no -> In (i + d, []) (lst min i no).
Proof.
  intros min i no d. induction no as [|no IH]; intro H; cbn [lst].
  - destruct (Nat.ltb_spec 0 min); [lia|]. left. f_equal. lia.
  - destruct (Nat.ltb_spec (S no) min); [lia|]. destruct (Nat.eq_dec d (S no)) as [->|]; [now left|]. right. apply IH. lia.
Qed.
Lemma count_any : forall i, count_run (fun _ => true) (skipn i s) = length s - i.
Proof. intro i. rewrite <- skipn_length. unfold count_run. generalize (skipn i s). intro l. induction l as [|c l IH]; [reflexivity|]. cbn. now rewrite IH. Qed.
Lemma count_ext : forall f g l, (forall c, f c = g c) -> count_run f l = count_run g l.
Proof. intros f g l H. unfold count_run. f_equal. induction l as [|c l IH]; [reflexivity|]. cbn. rewrite H. destruct (g c); [now rewrite IH|reflexivity]. Qed.
Lemma c_string_first : forall p t, c_string code p = Some t -> t <> [] -> nth_error code p = Some (hd NUL t).
Proof.
  intros p t H N. unfold c_string in H. destruct (Nat.ltb_spec (p + length (take_while (fun c => negb (Ascii.eqb c NUL)) (skipn p code))) (length code)) as [L1|]; [|discriminate]. injection H as <-.
  destruct (nth_error code p) as [c|] eqn:E; [|exfalso; apply nth_error_None in E; lia].
  rewrite (skipn_cons code p c E) in *. cbn [take_while] in *. destruct (Ascii.eqb c NUL); [now elim N|reflexivity].
Qed.
Lemma rep_simple : forall a p i, simple a = true -> wf_atom a -> at_atom code a p None -> regrepeat s code p i = Some (count_run (ch a) (skipn i s)).
Proof.
  intros a p i H W A. destruct a as [| | |neg em cs|t|n l]; try discriminate; cbn [at_atom wf_atom] in *; unfold regrepeat.
  - destruct (node_op _ _ _ _ A) as (o & E & O). rewrite E, O. cbn [Nat.eqb oANY]. now rewrite count_any.
  - destruct A as [A CS]. destruct W as [W _]. destruct (node_op _ _ _ _ A) as (o & E & O). rewrite E, O, CS. cbn [ch]. unfold cls_ok. destruct neg; cbn [Nat.eqb oANY oEXACTLY oANYOF oANYBUT]; f_equal; apply count_ext; intro c; cbn [ch]; unfold cls_ok; rewrite W; destruct (existsb _ cs); reflexivity.
  - destruct A as [A CS]. destruct W as [W1 W2]. destruct (node_op _ _ _ _ A) as (o & E & O). rewrite E, O. cbn [Nat.eqb oANY oEXACTLY]. rewrite (c_string_first _ _ CS W1).
    cbn [simple] in H. apply Nat.eqb_eq in H. destruct t as [|c [|d t]]; try discriminate. cbn [hd]. destruct (Ascii.eqb_spec c NUL) as [Q|_]; [elim W2; now left|]. reflexivity.
Qed.
Lemma frag_simple : forall a p q op, simple a = true -> wf_atom a -> at_atom code a (p + 3) None -> is_node code p op (Some q) -> op = oSTAR \/ op = oPLUS ->
  frag p q (ways s (if op =? oSTAR then Star (den_atom a) else Plus (den_atom a))).
Proof.
  intros a p q op Sa W A H O Hq i K Hi R. set (no := count_run (ch a) (skipn i s)). pose proof (count_le (ch a) i) as NL. fold no in NL.
  assert (E : ways s (if op =? oSTAR then Star (den_atom a) else Plus (den_atom a)) i = lst (if op =? oSTAR then 0 else 1) i no).
  { assert (EX : forall k i, repeat_ways k (ways s (den_atom a)) i = repeat_ways k (one_char s (ch a)) i).
    { intros k. induction k as [|k IH]; intro i0; [reflexivity|]. cbn [repeat_ways]. rewrite (simple_ch a Sa W). f_equal. apply wt_ext. intros. apply IH. }
    destruct O as [-> | ->]; cbn [Nat.eqb oSTAR oPLUS ways].
    - rewrite EX. now apply repeat_char; [|lia].
    - rewrite (simple_ch a Sa W). unfold one_char, no. destruct (nth_error s i) as [c|] eqn:E; [destruct (ch a c) eqn:Q|].
      + assert (i < length s) by (apply nth_error_Some; congruence). rewrite wt_one, EX, repeat_char by lia. rewrite (count_S (ch a) i c E Q). symmetry. apply lst1_S.
      + rewrite count_0 by congruence. reflexivity.
      + rewrite count_0 by congruence. reflexivity. }
  rewrite E in *. clear E. set (min := if op =? oSTAR then 0 else 1) in *.
  destruct (nth_error code q) as [oq|] eqn:Eq; [|apply nth_error_None in Eq; lia].
  assert (RR : forall d, min <= d <= no -> real q (i + d) (K (i + d))) by (intros d Hd; apply (R (i + d) []); now apply in_lst).
  destruct (real_many nat (fun d n => min <= d <= no -> okr (K (i + d)) (regmatch s code n (Some q) (mkG (i + d) BL BL))) (seq 0 (S no))) as [n0 RM].
  { intros d _. destruct (le_dec min d) as [L1|L1]; [destruct (le_dec d no) as [L2|L2]|]; [|exists 0; intros; lia|exists 0; intros; lia]. destruct (RR d (conj L1 L2)) as [n0 Q]. exists n0. intros n Hn _. now apply Q. }
  exists (S n0). intros [|n] Hn; [lia|]. unfold is_node in H. cbn [regmatch]. rewrite H. cbn [g_in].
  assert (OO : ((op =? oSTAR) || (op =? oPLUS))%bool = true) by (destruct O as [-> | ->]; reflexivity).
  assert (ST : forall (x y : mres), x = y -> okr (ways_then (lst min i no) K) y -> okr (ways_then (lst min i no) K) x) by (intros x y -> Hx; exact Hx).
  apply ST with (y := star_loop (regmatch s code n (Some q)) s (if nat_of_ascii oq =? oEXACTLY then nth (q + 3) code NUL else NUL) (if op =? oSTAR then 0 else 1) i no (set_in (mkG i BL BL) (i + no))).
  { destruct O as [-> | ->]; cbn [Nat.eqb oEOL oBOL oANY oEXACTLY oANYOF oANYBUT oNOTHING oBACK oOPEN oCLOSE oBRANCH oSTAR oPLUS orb andb Nat.leb Nat.add]; rewrite Eq, (rep_simple a (p + 3) i Sa W A); fold no; reflexivity. }
  unfold set_in. cbn [g_start g_end]. change (if op =? oSTAR then 0 else 1) with min. apply star_ok.
  - intros d Hd. apply (RM n); [lia|apply in_seq; lia|exact Hd].
  - intros d Hd N1 N2. destruct (Nat.eqb_spec (nat_of_ascii oq) oEXACTLY) as [Q|Q]; [|congruence]. exact (real_skip s code q (i + d) _ (RR d Hd) oq Eq Q N1 N2).
Qed.
End F.
