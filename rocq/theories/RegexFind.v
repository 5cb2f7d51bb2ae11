(** RegexFind.v -- find. *)
From Coq Require Import List Ascii Bool Arith Lia.
Import ListNotations.
From Verif Require Import Base RegexModel RegexSpec RegexAst RegexGen RegexSim3 RegexGrammar RegexGrammar2 RegexCompile RegexCompile2 RegexLayout RegexWays RegexMatch RegexMatch2 RegexMatch3.

(** [found s r m]: m is the answer for the leftmost place that matches. *)
Definition found (s : str) (r : re) (m : mres) : Prop :=
  (exists g i j e rest, m = MRes true g /\ i <= length s /\ ways s r i = (j, e) :: rest /\ (forall i', i' < i -> ways s r i' = []) /\
     nth 0 (g_start g) None = Some i /\ nth 0 (g_end g) None = Some j /\ forall k, 1 <= k < 10 -> nth k (g_start g) None = entered k e /\ nth k (g_end g) None = left_at k e) \/
  (exists g, m = MRes false g /\ forall i, i <= length s -> ways s r i = []).
Definition tried (s : str) (r : re) (i : nat) (m : mres) : Prop :=
  match m with
  | MRes true g => exists j e rest, ways s r i = (j, e) :: rest /\ nth 0 (g_start g) None = Some i /\ nth 0 (g_end g) None = Some j /\ forall k, 1 <= k < 10 -> nth k (g_start g) None = entered k e /\ nth k (g_end g) None = left_at k e
  | MRes false _ => ways s r i = []
  | _ => False
  end.
Lemma regtry_ok : forall s l, wf_alts l -> length (prog l) < B64 -> exists n0, forall n, n0 <= n -> forall i, i <= length s -> tried s (den_alts l) i (regtry s (prog l) n i).
Proof.
  intros s l W H. destruct (real_many nat (fun i n => i <= length s -> okr (ways s (den_alts l) i) (regmatch s (prog l) n (Some 1) (mkG i BL BL))) (seq 0 (S (length s)))) as [n0 R].
  { intros i I0. apply in_seq in I0. destruct (match_prog s l W H i ltac:(lia)) as [n0 R]. exists n0. intros n Hn _. now apply R. }
  exists n0. intros n Hn i Hi. specialize (R n Hn i ltac:(apply in_seq; lia) Hi). unfold regtry. fold BL. apply okr_cases in R. destruct R as [(E & i' & ->)|(j & e & t & E & ->)]; cbn [tried]; [exact E|].
  exists j, e, t. split; [exact E|]. cbn [g_start g_end g_in].
  assert (LA : forall f e, length (arr f e) = 10) by (intros; unfold arr; now rewrite map_length, seq_length).
  split; [rewrite lu_eq by (rewrite LA; lia); reflexivity|]. split; [rewrite lu_eq by (rewrite LA; lia); reflexivity|].
  intros k Hk. split; rewrite lu_ne by lia; apply arr_nth; unfold NSUBEXP; lia.
Qed.
Lemma from_ok : forall s r code n start, (forall i, i <= length s -> tried s r i (regtry s code n i)) ->
  (start <> NUL -> forall i, i <= length s -> ways s r i <> [] -> nth_error s i = Some start) ->
  forall k i, k + i = length s -> (forall i', i' < i -> ways s r i' = []) -> found s r (try_from s code n start k i).
Proof.
  intros s r code n start T ST k. induction k as [|k IH]; intros i Hk LE.
  - assert (LA : forall i', ways s r i = [] -> i' <= length s -> ways s r i' = []) by (intros i' Q Hi'; destruct (Nat.eq_dec i' i) as [->|]; [exact Q|apply LE; lia]).
    cbn [try_from]. destruct (Ascii.eqb_spec start NUL) as [->|N].
    + specialize (T i ltac:(lia)). destruct (regtry s code n i) as [[] g| |] eqn:E; cbn [tried] in T; try contradiction.
      * left. destruct T as (j & e & rest & T1 & T2). exists g, i, j, e, rest. repeat split; auto; try lia; try apply T2; assumption.
      * right. eexists. split; [reflexivity|]. auto.
    + right. eexists. split; [reflexivity|]. intros i' Hi'. apply LA; [|exact Hi']. destruct (ways s r i) eqn:Q; [reflexivity|]. exfalso. specialize (ST N i ltac:(lia) ltac:(congruence)). assert (i < length s) by (apply nth_error_Some; congruence). lia.
  - assert (NX : ways s r i = [] -> found s r (try_from s code n start k (i + 1))).
    { intro Q. apply IH; [lia|]. intros i' Hi'. destruct (Nat.eq_dec i' i) as [->|]; [exact Q|apply LE; lia]. }
    assert (TR : found s r (match regtry s code n i with MRes true g => MRes true g | MRes false _ => try_from s code n start k (i + 1) | e => e end)).
    { specialize (T i ltac:(lia)). destruct (regtry s code n i) as [[] g| |] eqn:E; cbn [tried] in T; try contradiction; [|now apply NX].
      left. destruct T as (j & e & rest & T1 & T2). exists g, i, j, e, rest. repeat split; auto; try lia; try apply T2; assumption. }
    cbn [try_from]. destruct (Ascii.eqb_spec start NUL) as [Q|N]; [exact TR|].
    destruct (Ascii.eqb_spec (subj s i) start) as [Q|Q]; [exact TR|]. apply NX. destruct (ways s r i) eqn:Q2; [reflexivity|]. exfalso. apply Q. apply subj_some. apply ST; [exact N|lia|congruence].
Qed.
Lemma lits_occur : forall s b i, ways s (den_branch b) i <> [] -> forall t, In t (lits b) -> exists k, is_prefix t (skipn k s) = true.
Proof.
  intros s b. induction b as [|x b IH]; intros i H t I0; [destruct I0|]. cbn [den_branch] in H. rewrite den_then_ways in H.
  assert (NE : exists j e, In (j, e) (wp s x i) /\ ways s (den_branch b) j <> []).
  { destruct (ways_then (wp s x i) (ways s (den_branch b))) as [|[k e] tl] eqn:Q; [congruence|].
    assert (I1 : In (k, e) (ways_then (wp s x i) (ways s (den_branch b)))) by (rewrite Q; now left). apply in_wt in I1. destruct I1 as (j & e1 & e2 & A & B & _). exists j, e1. split; [exact A|]. intro Z. rewrite Z in B. destruct B. }
  destruct NE as (j & e & A & B).
  assert (D : In t (lits b) \/ x = PAtom (ALit t)).
  { destruct x as [a|a|a|a]; cbn [lits] in I0; auto. destruct a as [| | |neg em cs|u|n l]; cbn [lits] in I0; auto. destruct I0 as [-> |I0]; auto. }
  destruct D as [D| ->]; [eapply IH; eauto|]. cbn [wp wa] in A. unfold wl in A. exists i. destruct (is_prefix t (skipn i s)); [reflexivity|destruct A].
Qed.
Lemma must_loop_ok : forall t s k, t <> [] -> is_prefix t (skipn k s) = true -> must_loop t s = true.
Proof.
  intros t s. induction s as [|c s IH]; intros k N H.
  - rewrite skipn_nil in H. destruct t; [congruence|discriminate].
  - cbn [must_loop]. apply orb_true_iff. destruct k as [|k]; cbn [skipn] in H; [left|right; eauto]. destruct t as [|m t]; [congruence|]. rewrite H, andb_true_r. cbn [is_prefix] in H. apply andb_true_iff in H. destruct H as [H _]. apply Ascii.eqb_eq in H. subst. apply Ascii.eqb_refl.
Qed.
Lemma lits_nonempty : forall b t, wf_branch b -> In t (lits b) -> t <> [].
Proof.
  intros b t. induction b as [|x b IH]; intros W I0; [destruct I0|]. destruct W as [Wx Wb]. destruct x as [a|a|a|a]; cbn [lits] in I0; auto. destruct a as [| | |neg em cs|u|n l]; cbn [lits] in I0; auto. destruct I0 as [-> |I0]; auto. exact (proj1 Wx).
Qed.
Lemma find_ok : forall s l x, wf_alts l -> length (prog l) < B64 -> x_prog x = prog l -> hints l x -> exists n0, forall n, n0 <= n -> found s (den_alts l) (rx_find n x s).
Proof.
  intros s l x W H P HI. destruct (regtry_ok s l W H) as [n0 T]. exists n0. intros n Hn. specialize (T n Hn). unfold rx_find. rewrite P. change (nth 0 (prog l) NUL) with MAGIC. rewrite Ascii.eqb_refl. cbn [negb].
  destruct (match x_must x with None => false | Some p => negb (must_loop (firstn (x_mlen x) (skipn p (prog l))) s) end) eqn:MU.
  - right. eexists. split; [reflexivity|]. intros i Hi. destruct (ways s (den_alts l) i) eqn:Q; [reflexivity|]. exfalso.
    destruct l as [b|b l']; cbn [hints] in HI; [|destruct HI as (_ & _ & E); rewrite E in MU; discriminate].
    destruct HI as (_ & _ & MI). unfold must_in in MI. destruct (x_must x) as [p|]; [|discriminate]. destruct MI as (t & I0 & E). rewrite P in E. rewrite E in MU. cbn [den_alts wf_alts] in *.
    destruct (lits_occur s b i ltac:(congruence) t I0) as [k K]. rewrite (must_loop_ok t s k (lits_nonempty b t W I0) K) in MU. discriminate.
  - destruct (x_anch x) eqn:AN.
    + assert (B0 : forall i, ways s (den_alts l) i <> [] -> i = 0).
      { intros i Q. destruct l as [b|b l']; cbn [hints] in HI; [|destruct HI as (_ & E & _); congruence]. destruct HI as (_ & [E|(b' & ->)] & _); [congruence|]. cbn [den_alts den_branch den_then den_atom ways] in Q. destruct (Nat.eqb_spec i 0); [assumption|]. now elim Q. }
      specialize (T 0 ltac:(lia)). destruct (regtry s (prog l) n 0) as [[] g| |] eqn:E; cbn [tried] in T; try contradiction.
      * left. destruct T as (j & e & rest & T1 & T2). exists g, 0, j, e, rest. repeat split; auto; try lia; try apply T2; assumption.
      * right. eexists. split; [reflexivity|]. intros i Hi. destruct (ways s (den_alts l) i) eqn:Q; [reflexivity|]. rewrite <- Q. rewrite (B0 i ltac:(congruence)). exact T.
    + apply from_ok; [exact T| |lia|intros; lia].
      intros NS i Hi Q. destruct l as [b|b l']; cbn [hints] in HI; [|destruct HI as (E & _); congruence]. destruct HI as ([E|(c & t & b' & -> & E)] & _ & _); [congruence|].
      cbn [den_alts den_branch] in Q. rewrite den_then_ways in Q. cbn [wp wa] in Q. unfold wl in Q. destruct (is_prefix (c :: t) (skipn i s)) eqn:PR; [|now elim Q].
      rewrite E. destruct (nth_error s i) as [d|] eqn:N; [|rewrite (skipn_end s i N) in PR; discriminate]. rewrite (skipn_cons s i d N) in PR. cbn [is_prefix] in PR. apply andb_true_iff in PR. destruct PR as [PR _]. apply Ascii.eqb_eq in PR. congruence.
Qed.
