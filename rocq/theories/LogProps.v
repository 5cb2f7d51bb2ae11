(** LogProps.v -- C98-C101: the logger. *)
From Coq Require Import List Ascii Bool Arith ZArith Lia.
Import ListNotations.
From Verif Require Import Base Numbers TokenizeSpec TokenizeProofs RegexModel PathModel PathProofs ConfigModel LogModel.

(** C98: what one call writes. *)
(** A text cut at newlines; a newline at the end does not start a line. *)
Definition lines_of (s : str) (ls : list str) : Prop := exists ts, splits (fun c => c = "010"%char) s ts /\ (ls = ts /\ last ts [] <> [] \/ ts = ls ++ [[]]).
Lemma getlines_lines : forall s, lines_of s (getlines s).
Proof.
  induction s as [|c s IH]; [exists [[]]; split; [constructor; intros c []|now right]|]. cbn [getlines]. destruct IH as (ts & S0 & LL). destruct (Ascii.eqb_spec c newline) as [->|NE].
  - exists ([] :: ts). split; [apply (sp_more (fun c => c = newline) [] newline s ts); [intros x []|reflexivity|exact S0]|]. destruct LL as [[-> LL]| ->]; [left|now right]. split; [reflexivity|]. destruct ts; [inversion S0|exact LL].
  - assert (X : forall t ts', splits (fun c => c = newline) s (t :: ts') -> splits (fun c => c = newline) (c :: s) ((c :: t) :: ts')).
    { intros t ts' H. inversion H as [t0 N E|t0 d s' ts0 N D H' E]; subst; [apply sp_last; intros x [<-|I0]; auto|]. apply (sp_more (fun c => c = newline) (c :: t)); auto. intros x [<-|I0]; auto. }
    destruct ts as [|t ts]; [inversion S0|]. specialize (X t ts S0). destruct LL as [[E LL]|E].
    + rewrite E. exists ((c :: t) :: ts). split; [exact X|]. left. split; [reflexivity|]. destruct ts; [discriminate|exact LL].
    + destruct (getlines s) as [|l ls]; cbn [app] in E; injection E as -> ->.
      * exists [[c]]. split; [exact X|]. left. split; [reflexivity|discriminate].
      * exists ((c :: l) :: ls ++ [[]]). split; [exact X|]. now right.
Qed.
(** The words for the levels. *)
Definition words : list (level * str) :=
  [(TRACE, L "TRACE"); (DEBUG, L "DEBUG"); (INFO, L "INFO"); (WARN, L "WARN"); (ERROR, L "ERROR"); (FATAL, L "FATAL"); (NONE, L "<unknown>")].
Theorem C98_every_line : forall buf ms lev word loc msg, In (lev, word) words -> exists ls, lines_of msg ls /\ concat (message_pieces buf ms lev loc msg) = concat (map (fun l => buf ++ L "." ++ dec (ms mod 1000) ++ L " " ++ word ++ L " " ++ loc ++ l ++ ["010"%char]) ls).
Proof.
  intros buf ms lev word loc msg W. assert (word = level_string lev) as -> by (cbn [words In] in W; repeat (destruct W as [W|W]; [injection W as <- <-; reflexivity|]); destruct W). exists (getlines msg). split; [apply getlines_lines|]. unfold message_pieces. induction (getlines msg) as [|l ls IH]; [reflexivity|]. cbn [flat_map map concat]. rewrite concat_app, IH. reflexivity.
Qed.
Print Assumptions C98_every_line.
Lemma lines_det : forall s a b, lines_of s a -> lines_of s b -> a = b.
Proof.
  intros s a b (ta & Sa & A) (tb & Sb & B). assert (E : ta = tb) by (eapply splits_unique; eauto; intro c; apply ascii_dec). subst tb.
  destruct A as [[-> A]|A], B as [[-> B]|B]; auto.
  - exfalso. apply A. rewrite B. apply last_last.
  - exfalso. apply B. rewrite A. apply last_last.
  - rewrite A in B. apply app_inj_tail in B. apply B.
Qed.
(** The lines can be put back together. *)
Theorem C98_lines_unique : forall s a b, lines_of s a -> lines_of s b -> a = b.
Proof. exact lines_det. Qed.
Print Assumptions C98_lines_unique.
Example C98_ex : concat (message_pieces (L "T") 1005 WARN (L "f.cxx(7): ") (L "a" ++ [newline] ++ L "b" ++ [newline])) = L "T.5 WARN f.cxx(7): a" ++ [newline] ++ L "T.5 WARN f.cxx(7): b" ++ [newline].
Proof. reflexivity. Qed.
(** Milliseconds are not padded: 5 ms and 50 ms past differ, but 5 ms prints as
    half a second would with one digit. *)
Theorem C98_fraction_refuted : exists ms, (ms mod 1000 = 5)%Z /\ line_pieces (L "T") ms INFO [] (L "m") = [L "T"; L "."; L "5"; L " "; L "INFO"; L " "; []; L "m"; [newline]].
Proof. exists 5%Z. split; reflexivity. Qed.
Print Assumptions C98_fraction_refuted.
(** A more severe message gets through whenever a less severe one does. *)
Theorem C98_monotone : forall cur a b, level_num a <= level_num b -> enabled cur a = true -> enabled cur b = true.
Proof. intros cur a b H E. unfold enabled in *. apply Nat.leb_le in E. apply Nat.leb_le. lia. Qed.
Print Assumptions C98_monotone.
(** A message is written exactly if its level is the logger's level or stands
    after it in the list of levels. *)
Definition severities : list level := [TRACE; DEBUG; INFO; WARN; ERROR; FATAL].
Theorem C98_threshold : forall cur lev, cur <> NONE -> (enabled cur lev = true <-> exists a b, severities = a ++ cur :: b /\ In lev (cur :: b)).
Proof.
  intros cur lev NC. split.
  - intro E. exists (firstn (level_num cur - 2) severities), (skipn (level_num cur - 1) severities). destruct cur; try (now elim NC); (split; [reflexivity|]); destruct lev; try discriminate E; cbn; tauto.
  - intros (a & b & E & I). unfold severities in E. do 6 (destruct a as [|? a]; [cbn in E; injection E as <- <-; cbn in I; intuition (subst; reflexivity)|injection E as <- E]). destruct a; discriminate.
Qed.
Print Assumptions C98_threshold.
(** LEVEL_NONE does not silence a logger: it lets everything through. *)
Theorem C98_none_silences_refuted : forall lev, enabled NONE lev = true.
Proof. intros []; reflexivity. Qed.
Print Assumptions C98_none_silences_refuted.

(** C99: threads. *)
Definition pieces_left (s : lstate) : list str := match l_lock s with None => [] | Some t => match l_pc s t with TWrite _ ps => ps | _ => [] end end.
Definition of_thread {A} (t : nat) (l : list (nat * A)) : list A := map snd (filter (fun x => fst x =? t) l).
Definition taken_msgs (s : lstate) : list (nat * msg) := map (fun x : nat * msg * list str => fst x) (l_taken s).
Definition waiting (p : tpc) : list msg := match p with TWait m _ => [m] | _ => [] end.
Definition inv (s : lstate) : Prop :=
  (forall t, (exists m ps, l_pc s t = TWrite m ps) <-> l_lock s = Some t) /\
  l_out s ++ pieces_left s = concat (map snd (l_taken s)) /\
  (forall t, of_thread t (l_sent s) = of_thread t (taken_msgs s) ++ waiting (l_pc s t)) /\
  (forall t m ps, In (t, m, ps) (l_taken s) -> exists buf ms, ps = message_pieces buf ms (m_level m) (m_loc m) (m_text m)) /\
  (forall t m ps, l_pc s t = TWait m ps -> exists buf ms, ps = message_pieces buf ms (m_level m) (m_loc m) (m_text m)).
Lemma lset_eq : forall f t p, lset f t p t = p.
Proof. intros. unfold lset. now rewrite Nat.eqb_refl. Qed.
Lemma lset_ne : forall f t p u, u <> t -> lset f t p u = f u.
Proof. intros f t p u H. unfold lset. apply Nat.eqb_neq in H. now rewrite H. Qed.
Lemma of_app : forall A t (a b : list (nat * A)), of_thread t (a ++ b) = of_thread t a ++ of_thread t b.
Proof. intros. unfold of_thread. now rewrite filter_app, map_app. Qed.
Lemma of_one : forall A t u (x : A), of_thread t [(u, x)] = if u =? t then [x] else [].
Proof. intros. unfold of_thread. cbn. now destruct (u =? t). Qed.
Lemma inv_reach : forall s, lreach s -> inv s.
Proof.
  intros s R. induction R as [|s t s' R IH ST].
  - split; [|split; [|split; [|split]]]; cbn.
    + intro t. split; [intros (m & ps & E); discriminate|discriminate].
    + reflexivity.
    + reflexivity.
    + intros t m ps [].
    + discriminate.
  - destruct IH as (I1 & I2 & I3 & I4 & I5).
    assert (OTHER : forall p, (forall m ps, p <> TWrite m ps) -> (forall m ps, l_pc s t <> TWrite m ps) ->
      (forall u, (exists m ps, lset (l_pc s) t p u = TWrite m ps) <-> l_lock s = Some u) /\ match l_lock s with None => [] | Some u => match lset (l_pc s) t p u with TWrite _ ps => ps | _ => [] end end = pieces_left s).
    { intros p P1 P2. split.
      - intro u. destruct (Nat.eq_dec u t) as [->|NE]; [rewrite lset_eq|rewrite lset_ne by exact NE; apply I1]. split; [intros (m & ps & E); now apply P1 in E|]. intro E. apply I1 in E. destruct E as (m & ps & E). now apply P2 in E.
      - unfold pieces_left. destruct (l_lock s) as [u|] eqn:LK; [|reflexivity]. destruct (Nat.eq_dec u t) as [->|NE]; [|now rewrite lset_ne]. exfalso. destruct (proj2 (I1 t) eq_refl) as (m & ps & E). now apply P2 in E. }
    assert (W5 : forall p, (forall m ps, p = TWait m ps -> exists buf ms, ps = message_pieces buf ms (m_level m) (m_loc m) (m_text m)) -> forall u m ps, lset (l_pc s) t p u = TWait m ps -> exists buf ms, ps = message_pieces buf ms (m_level m) (m_loc m) (m_text m)).
    { intros p HP u m ps. destruct (Nat.eq_dec u t) as [->|NE]; [rewrite lset_eq; apply HP|rewrite lset_ne by exact NE; apply I5]. }
    assert (W3 : forall p q, l_pc s t = q -> waiting p = waiting q -> forall u, of_thread u (l_sent s) = of_thread u (taken_msgs s) ++ waiting (lset (l_pc s) t p u)).
    { intros p q Eq Ew u. destruct (Nat.eq_dec u t) as [->|NE]; [rewrite lset_eq, Ew, <- Eq; apply I3|rewrite lset_ne by exact NE; apply I3]. }
    inversion ST as [m Hp E|g lev Hp E|m Hp Hoff E|m buf ms Hp Hon E|m ps Hp Hl E|m p ps Hp E|m Hp E]; subst s'; unfold inv; cbn [l_levels l_lock l_out l_pc l_taken l_sent]; unfold pieces_left, taken_msgs; cbn [l_levels l_lock l_out l_pc l_taken l_sent].
    + destruct (OTHER (TCheck m)) as [A B]; [discriminate|rewrite Hp; discriminate|]. split; [exact A|]. rewrite B. split; [exact I2|]. split; [exact (W3 (TCheck m) _ Hp eq_refl)|]. split; [exact I4|]. apply W5. discriminate.
    + split; [exact I1|]. split; [exact I2|]. split; [exact I3|]. split; [exact I4|exact I5].
    + destruct (OTHER TOut) as [A B]; [discriminate|rewrite Hp; discriminate|]. split; [exact A|]. rewrite B. split; [exact I2|]. split; [exact (W3 TOut _ Hp eq_refl)|]. split; [exact I4|]. apply W5. discriminate.
    + destruct (OTHER (TWait m (message_pieces buf ms (m_level m) (m_loc m) (m_text m)))) as [A B]; [discriminate|rewrite Hp; discriminate|]. split; [exact A|]. rewrite B. split; [exact I2|]. split; [|split; [exact I4|]].
      * intro u. rewrite of_app, of_one, I3. fold (taken_msgs s). destruct (Nat.eq_dec u t) as [->|NE].
        -- rewrite lset_eq, Nat.eqb_refl, Hp. cbn [waiting]. now rewrite app_nil_r.
        -- rewrite lset_ne by exact NE. replace (t =? u) with false by (symmetry; apply Nat.eqb_neq; congruence). now rewrite app_nil_r.
      * apply W5. intros m0 ps0 E0. injection E0 as <- <-. eauto.
    + assert (NW : forall u m0 ps0, l_pc s u <> TWrite m0 ps0). { intros u m0 ps0 E0. assert (l_lock s = Some u) by (apply I1; eauto). congruence. }
      split; [|split; [|split; [|split]]].
      * intro u. destruct (Nat.eq_dec u t) as [->|NE]; [rewrite lset_eq; split; [reflexivity|eauto]|rewrite lset_ne by exact NE]. split; [intros (m0 & ps0 & E0); now apply NW in E0|congruence].
      * rewrite lset_eq, map_app, concat_app. unfold pieces_left in I2. rewrite Hl, app_nil_r in I2. cbn [map concat snd]. now rewrite app_nil_r, I2.
      * intro u. rewrite I3, map_app. fold (taken_msgs s). cbn [map fst]. rewrite of_app, of_one, <- app_assoc. f_equal. destruct (Nat.eq_dec u t) as [->|NE].
        -- rewrite lset_eq, Nat.eqb_refl, Hp. reflexivity.
        -- rewrite lset_ne by exact NE. replace (t =? u) with false by (symmetry; apply Nat.eqb_neq; congruence). reflexivity.
      * intros u m0 ps0 I0. apply in_app_or in I0. destruct I0 as [I0|[I0|[]]]; [eauto|]. injection I0 as <- <- <-. eauto.
      * apply W5. discriminate.
    + assert (LK : l_lock s = Some t) by (apply I1; eauto). split; [|split; [|split; [|split]]].
      * intro u. destruct (Nat.eq_dec u t) as [->|NE]; [rewrite lset_eq; split; [intros _; exact LK|eauto]|rewrite lset_ne by exact NE; apply I1].
      * rewrite LK, lset_eq. unfold pieces_left in I2. rewrite LK, Hp in I2. rewrite <- app_assoc. exact I2.
      * exact (W3 (TWrite m ps) _ Hp eq_refl).
      * exact I4.
      * apply W5. discriminate.
    + assert (LK : l_lock s = Some t) by (apply I1; eauto). split; [|split; [|split; [|split]]].
      * intro u. destruct (Nat.eq_dec u t) as [->|NE]; [rewrite lset_eq; split; [intros (m0 & ps0 & E0); discriminate|discriminate]|rewrite lset_ne by exact NE]. split; [intro E0; apply I1 in E0; congruence|discriminate].
      * unfold pieces_left in I2. now rewrite LK, Hp in I2.
      * exact (W3 TOut _ Hp eq_refl).
      * exact I4.
      * apply W5. discriminate.
Qed.
(** Whatever the schedule, when nobody is writing the stream holds whole
    messages, one after the other; messages never mix. *)
Theorem C99_messages_do_not_mix : forall s, lreach s -> l_lock s = None -> l_out s = concat (map snd (l_taken s)) /\
  forall t m ps, In (t, m, ps) (l_taken s) -> exists buf ms, ps = message_pieces buf ms (m_level m) (m_loc m) (m_text m).
Proof. intros s R LK. destruct (inv_reach s R) as (_ & I2 & _ & I4 & _). unfold pieces_left in I2. rewrite LK, app_nil_r in I2. auto. Qed.
Print Assumptions C99_messages_do_not_mix.
(** At any time only the last message can be incomplete. *)
Theorem C99_prefix : forall s, lreach s -> exists rest, l_out s ++ rest = concat (map snd (l_taken s)).
Proof. intros s R. exists (pieces_left s). apply (inv_reach s R). Qed.
Print Assumptions C99_prefix.
(** The messages of a thread come out in the order it sent them, and none is
    lost: only one can be waiting for the lock. *)
Theorem C99_order_and_no_loss : forall s t, lreach s -> exists w, of_thread t (l_sent s) = of_thread t (taken_msgs s) ++ w /\ length w <= 1 /\ (l_pc s t = TOut -> w = []).
Proof.
  intros s t R. destruct (inv_reach s R) as (_ & _ & I3 & _). exists (waiting (l_pc s t)). split; [apply I3|]. split; [destruct (l_pc s t); cbn; lia|now intros ->].
Qed.
Print Assumptions C99_order_and_no_loss.
(** The lock is never held by two, and a waiting thread can go on as soon as it
    is free: no deadlock. *)
Theorem C99_no_deadlock : forall s, lreach s -> (exists t, l_pc s t <> TOut) -> exists t s', l_pc s t <> TOut /\ lstep s t s'.
Proof.
  intros s R (t & NT). destruct (inv_reach s R) as (I1 & _). destruct (l_lock s) as [u|] eqn:LK.
  - destruct (proj2 (I1 u) eq_refl) as (m & [|p ps] & E); exists u; eexists; (split; [congruence|]); [eapply ls_unlock|eapply ls_write]; exact E.
  - exists t. destruct (l_pc s t) as [|m|m ps|m ps] eqn:E; [congruence|..].
    + destruct (enabled (l_levels s (m_logger m)) (m_level m)) eqn:EN; eexists; (split; [congruence|]); [eapply (ls_on s t m [] 0%Z); eauto|eapply ls_off; eauto].
    + eexists. split; [congruence|]. eapply ls_lock; eauto.
    + exfalso. assert (X : None = Some t) by (apply I1; eauto). discriminate.
Qed.
Print Assumptions C99_no_deadlock.
Ltac tick R := cbn [linit l_levels l_lock l_out l_pc l_taken l_sent app message_pieces getlines flat_map m_text m_level m_loc] in R.
Example C99_ex : exists s m1 m2, lreach s /\ l_lock s = None /\ taken_msgs s = [(1, m2); (0, m1)] /\ of_thread 0 (l_sent s) = [m1].
Proof.
  set (m1 := mkM 0 INFO [] []). set (m2 := mkM 3 WARN [] []).
  assert (R := lr_init). tick R.
  eapply lr_step in R; [|eapply (ls_call _ 0 m1); reflexivity]. tick R. eapply lr_step in R; [|eapply (ls_on _ 0 m1 [] 0%Z); reflexivity]. tick R.
  eapply lr_step in R; [|eapply (ls_call _ 1 m2); reflexivity]. tick R. eapply lr_step in R; [|eapply (ls_on _ 1 m2 [] 0%Z); reflexivity]. tick R.
  eapply lr_step in R; [|eapply (ls_lock _ 1 m2 []); reflexivity]. tick R. eapply lr_step in R; [|eapply (ls_unlock _ 1 m2); reflexivity]. tick R.
  eapply lr_step in R; [|eapply (ls_lock _ 0 m1 []); reflexivity]. tick R. eapply lr_step in R; [|eapply (ls_unlock _ 0 m1); reflexivity]. tick R.
  eexists. exists m1, m2. split; [exact R|]. split; [reflexivity|]. split; reflexivity.
Qed.
