(** ArgHelpProps.v -- C116: the help text. *)
From Coq Require Import Lia ZArith.
From Verif Require Import Base ArgModel ArgHelpModel ArgHelpProofs.
Local Open Scope nat_scope.

(** ---- skipping blanks ---- *)
Fixpoint lead (s : str) : nat := match s with c :: r => if blank c then S (lead r) else 0 | [] => 0 end.
Definition no_nul (s : str) : Prop := forall c, In c s -> c <> "000"%char.
Lemma strip_read ptr cc fuel : no_nul ptr -> cc < List.length ptr -> strip (S fuel) ptr cc =
  match ptr with d :: r => if blank d then strip fuel r (S cc) else strip fuel ptr (S cc) | [] => strip fuel ptr (S cc) end.
Proof.
  intros N H. cbn [strip]. rewrite nth_error_app1 by exact H. destruct (nth_error ptr cc) as [c|] eqn:E; [|apply nth_error_None in E; lia].
  assert (ascii_eqb c NUL = false) as ->; [|reflexivity]. unfold ascii_eqb. apply Ascii.eqb_neq. apply N. eapply nth_error_In. exact E.
Qed.
Lemma strip_end ptr fuel : strip (S fuel) ptr (List.length ptr) = Some ptr.
Proof. cbn [strip]. rewrite nth_error_app2, Nat.sub_diag by lia. reflexivity. Qed.
Lemma strip_past ptr cc fuel : List.length ptr < cc -> strip (S fuel) ptr cc = None.
Proof. intros H. cbn [strip]. assert (nth_error (ptr ++ [NUL]) cc = None) as ->; [|reflexivity]. apply nth_error_None. rewrite app_length. cbn. lia. Qed.
Lemma strip_solid ptr : no_nul ptr -> lead ptr = 0 -> forall k cc fuel, cc + k = List.length ptr -> k < fuel -> strip fuel ptr cc = Some ptr.
Proof.
  intros N H0. induction k as [|k IH]; intros cc fuel E F; (destruct fuel as [|fuel]; [lia|]).
  - replace cc with (List.length ptr) by lia. apply strip_end.
  - rewrite strip_read by (assumption || lia). destruct ptr as [|d r] eqn:Ep; [cbn in E; lia|]. cbn [lead] in H0. destruct (blank d); [discriminate|]. rewrite <- Ep in *. apply IH; lia.
Qed.
Lemma no_nul_tl c r : no_nul (c :: r) -> no_nul r.
Proof. intros H d I. apply H. right. exact I. Qed.
Lemma lead_le s : lead s <= List.length s.
Proof. induction s as [|c s IH]; cbn; [lia|]. destruct (blank c); lia. Qed.
(** [i] blanks have been skipped already. *)
Lemma strip_ok : forall ptr i fuel, no_nul ptr -> List.length ptr + 1 < fuel ->
  strip fuel ptr i =
    (let n := List.length ptr + i in let j := lead ptr + i in
     if Nat.leb (2 * j) n then Some (skipn (lead ptr) ptr)
     else if Nat.even n then Some (skipn (n / 2 - i) ptr) else None) \/ List.length ptr < i.
Proof.
  induction ptr as [|c r IH]; intros i fuel N F; (destruct fuel as [|fuel]; [lia|]); cbn zeta.
  - destruct i as [|i]; [left; reflexivity|right; cbn; lia].
  - destruct (Nat.lt_total i (List.length (c :: r))) as [H|[H|H]]; [| |right; exact H].
    + left. rewrite strip_read by assumption. cbn [lead]. destruct (blank c) eqn:B.
      * cbn [List.length] in *. destruct (IH (S i) fuel (no_nul_tl _ _ N)) as [E|E]; [lia| |].
        -- rewrite E. cbn zeta. replace (List.length r + S i) with (S (List.length r) + i) by lia. replace (lead r + S i) with (S (lead r) + i) by lia.
           destruct (Nat.leb_spec (2 * (S (lead r) + i)) (S (List.length r) + i)) as [Lb|Lb]; [reflexivity|]. destruct (Nat.even (S (List.length r) + i)) eqn:Ev; [|reflexivity]. f_equal.
           assert (S i <= (S (List.length r) + i) / 2) as Q. { apply Nat.div_le_lower_bound; [lia|]. destruct (Nat.Even_Odd_dec (S (List.length r) + i)) as [[q Hq]|[q Hq]]; [lia|]. exfalso. rewrite Hq, Nat.even_add, Nat.even_mul in Ev. discriminate. }
           replace ((S (List.length r) + i) / 2 - i) with (S ((S (List.length r) + i) / 2 - S i)) by lia. reflexivity.
        -- assert (List.length r = i) as Q by lia. destruct fuel as [|fuel]; [lia|]. rewrite strip_past by lia. pose proof (lead_le r).
           destruct (Nat.leb_spec (2 * (S (lead r) + i)) (S (List.length r) + i)) as [Lb|Lb]; [lia|].
           replace (Nat.even (S (List.length r) + i)) with false; [reflexivity|]. rewrite Q. replace (S i + i) with (1 + 2 * i) by lia. rewrite Nat.even_add, Nat.even_mul. reflexivity.
      * cbn [List.length] in *. rewrite (strip_solid (c :: r) N) with (k := List.length r - i); [|cbn; rewrite B; reflexivity|cbn; lia|lia]. destruct (Nat.leb_spec (2 * (0 + i)) (S (List.length r) + i)); [reflexivity|lia].
    + left. rewrite H, strip_end. destruct (Nat.leb_spec (2 * (lead (c :: r) + List.length (c :: r))) (List.length (c :: r) + List.length (c :: r))) as [Lb|Lb].
      * replace (lead (c :: r)) with 0 by lia. reflexivity.
      * replace (Nat.even (List.length (c :: r) + List.length (c :: r))) with true; [|replace (List.length (c :: r) + List.length (c :: r)) with (2 * List.length (c :: r)) by lia; rewrite Nat.even_mul; reflexivity].
        replace ((List.length (c :: r) + List.length (c :: r)) / 2 - List.length (c :: r)) with 0; [reflexivity|]. replace (List.length (c :: r) + List.length (c :: r)) with (List.length (c :: r) * 2) by lia. rewrite Nat.div_mul by lia. lia.
Qed.
(** Skipping blanks at the start of a help text (or of the rest of one) reads past
    its end exactly when its length is odd and more than half of it are blanks at the
    start. *)
Theorem C116_strip : forall s, no_nul s ->
  (strip (S (S (List.length s))) s 0 = None <-> Nat.odd (List.length s) = true /\ List.length s < 2 * lead s).
Proof.
  intros s N. destruct (strip_ok s 0 (S (S (List.length s))) N) as [E|E]; [lia| |lia]. rewrite E. cbn zeta. rewrite !Nat.add_0_r. unfold Nat.odd.
  destruct (Nat.leb_spec (2 * lead s) (List.length s)); [split; [discriminate|lia]|]. destruct (Nat.even (List.length s)); cbn; split; try discriminate; try tauto; intros [? ?]; discriminate.
Qed.

(** ---- specification: the lines of a help text ---- *)
(** Every blank is followed by a non-blank. *)
Fixpoint tidy (s : str) : Prop :=
  match s with
  | [] => True
  | c :: r => c <> "000"%char /\ (blank c = true -> match r with [] => False | d :: _ => blank d = false end) /\ tidy r
  end.
(** The words of a text. *)
Definition emit (cur : str) : list str := match cur with [] => [] | _ => [cur] end.
Fixpoint words_from (cur : str) (s : str) : list str :=
  match s with
  | [] => emit cur
  | c :: r => if blank c then emit cur ++ words_from [] r else words_from (cur ++ [c]) r
  end.
Definition words (s : str) : list str := words_from [] s.
Definition solid (s : str) : str := filter (fun c => negb (blank c)) s.

Lemma tidy_nul s : tidy s -> no_nul s.
Proof. induction s as [|c s IH]; cbn; [intros _ d []|]. intros (A & _ & B) d [<-|I]; [exact A|]. apply IH; assumption. Qed.
Lemma tidy_skipn s k : tidy s -> tidy (skipn k s).
Proof. revert s. induction k as [|k IH]; intros [|c s] H; cbn [skipn]; auto. apply IH. apply H. Qed.
Lemma strip_tidy s : tidy s -> s <> [] -> strip (S (S (List.length s))) s 0 = Some (drop_while blank s) /\ lead (drop_while blank s) = 0 /\ drop_while blank s <> [].
Proof.
  intros T N. pose proof (tidy_nul s T) as Nn. destruct s as [|c r]; [congruence|]. destruct T as (_ & H & T). cbn [drop_while]. destruct (blank c) eqn:B.
  - specialize (H eq_refl). destruct r as [|d r]; [contradiction|]. cbn [drop_while]. rewrite H. cbn [lead]. rewrite H. split; [|split; [reflexivity|discriminate]].
    rewrite strip_read by (assumption || cbn; lia). rewrite B. apply (strip_solid (d :: r) (no_nul_tl _ _ Nn)) with (k := List.length r); [cbn; rewrite H; reflexivity|cbn; lia|cbn; lia].
  - split; [|split; [cbn; rewrite B; reflexivity|discriminate]]. apply (strip_solid (c :: r) Nn) with (k := List.length (c :: r)); [cbn; rewrite B; reflexivity|lia|lia].
Qed.
Lemma back_spec ptr : forall cc, (back ptr cc = 0 /\ (forall i, 0 < i <= cc -> blank (nth i ptr NUL) = false)) \/ (0 < back ptr cc <= cc /\ blank (nth (back ptr cc) ptr NUL) = true).
Proof.
  induction cc as [|cc IH]; cbn [back]; [left; split; [reflexivity|lia]|]. destruct (blank (nth (S cc) ptr NUL)) eqn:B; [right; split; [lia|exact B]|].
  destruct IH as [[A C]|[A C]]; [left; split; [exact A|]|right; split; [lia|exact C]]. intros i Hi. destruct (Nat.eq_dec i (S cc)) as [->|]; [exact B|apply C; lia].
Qed.
Lemma words_app a c b : forall cur, blank c = true -> words_from cur (a ++ c :: b) = words_from cur a ++ words_from [] (c :: b).
Proof.
  induction a as [|x a IH]; intros cur B; cbn [app words_from].
  - rewrite B. reflexivity.
  - destruct (blank x); [rewrite IH, app_assoc by exact B; reflexivity|apply IH; exact B].
Qed.
Lemma words_drop s : words (drop_while blank s) = words s.
Proof. induction s as [|c s IH]; cbn [drop_while]; [reflexivity|]. destruct (blank c) eqn:B; [|reflexivity]. rewrite IH. unfold words. cbn [words_from]. rewrite B. reflexivity. Qed.
Lemma solid_drop s : solid (drop_while blank s) = solid s.
Proof. induction s as [|c s IH]; cbn [drop_while solid filter]; [reflexivity|]. destruct (blank c) eqn:B; cbn [negb]; [exact IH|]. cbn [filter]. rewrite B. reflexivity. Qed.
(** A first word at least as long as a run of non-blanks. *)
Lemma words_run : forall s cur, cur ++ s <> [] -> lead s = 0 \/ cur <> [] -> exists w rest, words_from cur s = w :: rest /\ exists t, w = cur ++ t /\ firstn (List.length t) s = t /\ (skipn (List.length t) s = [] \/ exists c b, skipn (List.length t) s = c :: b /\ blank c = true) /\ forall x, In x t -> blank x = false.
Proof.
  induction s as [|c s IH]; intros cur N H; cbn [words_from].
  - rewrite app_nil_r in N. destruct cur as [|x cur]; [congruence|]. eexists _, _. split; [reflexivity|]. exists []. rewrite app_nil_r. repeat split; [left; reflexivity|intros ? []].
  - destruct (blank c) eqn:B.
    + destruct H as [H|H]; [cbn in H; rewrite B in H; discriminate|]. destruct cur as [|x cur]; [congruence|]. cbn [emit app]. eexists _, _. split; [reflexivity|]. exists []. rewrite app_nil_r. cbn [List.length firstn skipn]. repeat split; [right; eauto|intros ? []].
    + destruct (IH (cur ++ [c])) as (w & rest & E & t & Ew & F & G & Hx); [destruct cur; discriminate|right; destruct cur; discriminate|]. exists w, rest. split; [exact E|]. exists (c :: t). rewrite Ew, <- app_assoc. cbn [app List.length firstn skipn]. rewrite F. repeat split; [exact G|]. intros x [<-|I]; auto.
Qed.
(** Where a text is broken. *)
Lemma break_spec w ptr : (0 < w)%Z -> ptr <> [] -> lead ptr = 0 ->
  exists k, break w ptr = Some k /\ 0 < k <= List.length ptr /\ (Z.of_nat k <= w)%Z /\
    (k = List.length ptr \/ (exists c b, skipn k ptr = c :: b /\ blank c = true) \/ Z.of_nat k = w /\ (forall i, i < k -> blank (nth i ptr NUL) = false)).
Proof.
  intros W N H. unfold break. destruct (Z.leb_spec (Z.of_nat (List.length ptr)) w) as [Le|Gt].
  - exists (List.length ptr). split; [reflexivity|]. split; [destruct ptr; [congruence|cbn; lia]|]. split; [lia|auto].
  - destruct (Z.eqb_spec w 0) as [|_]; [lia|]. eexists. split; [reflexivity|]. destruct (back_spec ptr (Z.to_nat w - 1)) as [[-> Q]|[A Q]].
    + cbn [Nat.eqb]. split; [lia|]. split; [lia|]. right. right. split; [lia|]. intros i Hi. destruct i as [|i]; [destruct ptr as [|c r]; [congruence|]; cbn in H |- *; destruct (blank c); [discriminate|reflexivity]|apply Q; lia].
    + destruct (Nat.eqb_spec (back ptr (Z.to_nat w - 1)) 0) as [|_]; [lia|]. split; [lia|]. split; [lia|]. right. left. set (k := back ptr (Z.to_nat w - 1)) in *.
      destruct (skipn k ptr) as [|c b] eqn:E; [exfalso; assert (List.length (skipn k ptr) = 0) as X by (rewrite E; reflexivity); rewrite skipn_length in X; lia|]. exists c, b. split; [reflexivity|]. rewrite <- Q. f_equal.
      rewrite <- (firstn_skipn k ptr), app_nth2; rewrite firstn_length_le by lia; [|lia]. rewrite Nat.sub_diag, E. reflexivity.
Qed.
Lemma nth_firstn_run ptr k : k <= List.length ptr -> (forall i, i < k -> blank (nth i ptr NUL) = false) -> forall x, In x (firstn k ptr) -> blank x = false.
Proof.
  intros Hk H x I. apply (In_nth _ _ NUL) in I. destruct I as (i & Hi & <-). rewrite firstn_length_le in Hi by exact Hk. rewrite <- (H i Hi). f_equal.
  rewrite <- (firstn_skipn k ptr) at 2. rewrite app_nth1; [reflexivity|rewrite firstn_length_le by exact Hk; exact Hi].
Qed.
(** The lines of a tidy help text. *)
Definition lines_of (w : Z) (s : str) (ls : list str) : Prop :=
  Forall (fun l => l <> [] /\ lead l = 0 /\ (Z.of_nat (List.length l) <= w)%Z) ls /\
  solid (List.concat ls) = solid s /\
  (Forall (fun x => (Z.of_nat (List.length x) <= w)%Z) (words s) -> flat_map words ls = words s).
Lemma solid_app a b : solid (a ++ b) = solid a ++ solid b.
Proof. apply filter_app. Qed.
Theorem C116_lines : forall w s fuel, (0 < w)%Z -> tidy s -> List.length s < fuel -> exists ls, help_pieces fuel w s = Some ls /\ lines_of w s ls.
Proof.
  intros w s fuel W. revert s. induction fuel as [|fuel IH]; intros s T F; [lia|]. cbn [help_pieces]. destruct s as [|c0 s0]; [exists []; split; [reflexivity|split; [constructor|split; reflexivity]]|].
  set (s := c0 :: s0) in *. destruct (strip_tidy s T) as (Es & L0 & Np); [discriminate|]. rewrite Es. set (q := drop_while blank s) in *.
  destruct (break_spec w q W Np L0) as (k & -> & Hk & Kw & Kc).
  assert (List.length q <= List.length s) as Lq by (apply drop_while_length).
  assert (tidy q) as Tq. { unfold q, s. cbn [drop_while]. destruct (blank c0); [|exact T]. destruct T as (_ & H & T). clear - T. induction s0 as [|c s IH]; cbn [drop_while]; [exact I|]. destruct (blank c); [apply IH; apply T|exact T]. }
  destruct (IH (skipn k q) (tidy_skipn q k Tq)) as (ls & -> & Hf & Hs & Hw); [rewrite skipn_length; lia|].
  exists (firstn k q :: ls). split; [reflexivity|]. split; [|split].
  - constructor; [|exact Hf]. split; [|split].
    + intros X. assert (List.length (firstn k q) = 0) as Y by (rewrite X; reflexivity). rewrite firstn_length_le in Y; lia.
    + destruct q as [|d q']; [congruence|]. destruct k; [lia|]. cbn [firstn lead] in *. destruct (blank d); [discriminate|reflexivity].
    + rewrite firstn_length_le by lia. exact Kw.
  - cbn [List.concat]. rewrite solid_app, Hs, <- solid_app, firstn_skipn. apply solid_drop.
  - intros Fw. rewrite <- words_drop in Fw |- *. fold q in Fw |- *. cbn [flat_map].
    assert ((exists c b, skipn k q = c :: b /\ blank c = true) \/ skipn k q = []) as Brk.
    { destruct Kc as [Q|[Q|[Q Run]]]; [right; rewrite Q; apply skipn_all|left; exact Q|].
      destruct (words_run q []) as (x & rest & Ew & t & Ex & Ft & Gt & Bt); [exact Np|left; exact L0|]. cbn [app] in Ex. subst x. unfold words in Fw. rewrite Ew in Fw. inversion Fw as [|? ? Lt _]; subst.
      assert (List.length t <= k) as Tk by lia.
      destruct (Nat.eq_dec (List.length t) k) as [E|Ne]; [rewrite <- E; destruct Gt; auto|]. exfalso.
      destruct Gt as [Gt|(c & b & Gt & Bc)].
      - assert (List.length (skipn (List.length t) q) = 0) as Y by (rewrite Gt; reflexivity). rewrite skipn_length in Y. lia.
      - assert (nth (List.length t) q NUL = c) as Y. { rewrite <- (firstn_skipn (List.length t) q), Ft, app_nth2, Nat.sub_diag, Gt by lia. reflexivity. } rewrite <- Y, (Run (List.length t)) in Bc by lia. discriminate. }
    assert (words q = words (firstn k q) ++ words (skipn k q)) as Wq.
    { destruct Brk as [(c & b & E & B)|E].
      - rewrite <- (firstn_skipn k q) at 1. rewrite E. unfold words. apply words_app. exact B.
      - rewrite <- (firstn_skipn k q) at 1. rewrite E, !app_nil_r. reflexivity. }
    rewrite Wq in Fw |- *. apply Forall_app in Fw. rewrite (Hw (proj2 Fw)). reflexivity.
Qed.
