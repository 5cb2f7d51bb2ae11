(** RegexMatch3.v -- regmatch on whole programs. *)
From Coq Require Import List Ascii Bool Arith Lia.
Import ListNotations.
From Verif Require Import Base RegexModel RegexSpec RegexAst RegexGen RegexSim3 RegexGrammar RegexGrammar2 RegexCompile RegexLayout RegexWays RegexMatch RegexMatch2.

Section F.
Context (s code : str) (SN : ~ In NUL s).
Notation real := (real s code).
Notation frag := (frag s code).
Definition wp (x : piece) : nat -> list way :=
  match x with PAtom a => wa s a | PStar a => ways s (Star (den_atom a)) | PPlus a => ways s (Plus (den_atom a)) | POpt a => ways s (Opt (den_atom a)) end.
Lemma wa_ways : forall a, wf_atom a -> (forall t, a = ALit t -> length t = 1) -> forall i, wa s a i = ways s (den_atom a) i.
Proof.
  intros a W H i. destruct a as [| | |neg em cs|t|n l]; try reflexivity. specialize (H t eq_refl). destruct t as [|c [|d t]]; try discriminate. cbn [wa den_atom ways]. apply wl_one.
  destruct W as [_ W]. intros ->. apply W. now left.
Qed.
Lemma den_then_ways : forall x r i, ways s (den_then x r) i = ways_then (wp x i) (ways s r).
Proof. intros x r i. destruct x as [a|a|a|a]; try reflexivity. destruct a as [| | |neg em cs|t|n l]; try reflexivity. cbn [den_then wp wa]. apply ways_chars. Qed.
Lemma frag_seq : forall p m q W1 W2, frag p m W1 -> m < length code -> frag m q W2 -> (forall i j e, i <= length s -> In (j, e) (W1 i) -> j <= length s) -> frag p q (fun i => ways_then (W1 i) W2).
Proof.
  intros p m q W1 W2 F1 Hm F2 B Hq i K Hi R. rewrite wt_assoc. apply F1; [exact Hm|exact Hi|]. intros j e I0. apply F2; [exact Hq|eauto|]. intros k e2 I2. apply (R k (e2 ++ e)). apply in_wt. eauto 7.
Qed.
Lemma wp_bound : forall x, wf_piece x -> forall i j e, i <= length s -> In (j, e) (wp x i) -> j <= length s.
Proof.
  intros x W i j e Hi H. assert (WS : forall r, In (j, e) (ways s r i) -> j <= length s) by (intros r K; eapply m_bound; [eapply ways_sound; eassumption|exact Hi]).
  destruct x as [a|a|a|a]; cbn [wp] in H; try (eapply WS; exact H). destruct a as [| | |neg em cs|t|n l]; cbn [wa] in H; try (eapply WS; exact H).
  unfold wl in H. destruct (is_prefix t (skipn i s)) eqn:P; [|destruct H]. destruct H as [E|[]]. injection E as <- <-. apply is_prefix_app in P. destruct P as [r P]. apply (f_equal (@length ascii)) in P. rewrite skipn_length, app_length in P. lia.
Qed.
Lemma at_lt : (forall a p q, wf_atom a -> at_atom code a p q -> p < length code) /\ (forall x p q, wf_piece x -> at_piece code x p q -> p < length code) /\
  (forall b p q, wf_branch b -> at_branch code b p q -> p < length code).
Proof.
  assert (A : forall a p q, wf_atom a -> at_atom code a p q -> p < length code).
  { intros a p q W H. destruct a as [| | |neg em cs|t|n l]; cbn [at_atom] in H; try (eapply node_lt; exact H); try (eapply node_lt; exact (proj1 H)). destruct H as (c & H & _). eapply node_lt; exact H. }
  assert (X : forall x p q, wf_piece x -> at_piece code x p q -> p < length code).
  { intros x p q W H. destruct x as [a|a|a|a]; cbn [at_piece wf_piece] in *; [eapply A; eauto| | |].
    - destruct (simple a); [eapply node_lt; exact (proj1 H)|]. destruct H as (b & k & H & _). eapply node_lt; exact H.
    - destruct (simple a); [eapply node_lt; exact (proj1 H)|]. destruct H as (b & k & H & _). eapply A; [|exact H]. tauto.
    - destruct H as (b & k & H & _). eapply node_lt; exact H. }
  split; [exact A|]. split; [exact X|]. intros b p q W H. destruct b as [|x b]; cbn [at_branch] in H; [eapply node_lt; exact H|]. destruct W as [Wx Wb].
  destruct b as [|x' b]; [eapply X; eauto|]. destruct H as (m & H & _). eapply X; eauto.
Qed.
Lemma strict : forall a, wf_atom a -> w_atom a = true -> forall i j e, i <= length s -> In (j, e) (ways s (den_atom a) i) -> i < j /\ j <= length s.
Proof.
  intros a W WA i j e Hi H. apply ways_sound in H; [|exact Hi]. pose proof (m_mono _ _ _ _ H). pose proof (m_bound _ _ _ _ H Hi).
  assert (i <> j); [|lia]. intro Q. apply m_nil in H; [|exact Q]. apply (proj1 width_nil a W) in H. congruence.
Qed.
Lemma nothing_notbr : forall p q, is_node code p oNOTHING q -> notbr code p.
Proof. intros p q H. destruct (node_op _ _ _ _ H) as (o & E & O). exists o. split; [exact E|]. rewrite O. discriminate. Qed.
Lemma star_loop_ok : forall a p b k q, wf_atom a -> w_atom a = true -> frag (p + 3) k (ways s (den_atom a)) ->
  is_node code p oBRANCH (Some b) -> is_node code k oBACK (Some p) -> is_node code b oBRANCH (Some (b + 3)) -> is_node code (b + 3) oNOTHING (Some q) -> p < b ->
  frag p q (ways s (Star (den_atom a))).
Proof.
  intros a p b k q W WA FA H1 H2 H3 H4 L1 Hq. set (w := ways s (den_atom a)) in *.
  assert (G : forall m n i K, length s - i <= m -> length s - i <= n -> i <= length s -> (forall j e, In (j, e) (repeat_ways n w i) -> real q j (K j)) -> real p i (ways_then (repeat_ways n w i) K)).
  { induction m as [|m IH]; intros n i K Hm Hn Hi R.
    - assert (E : repeat_ways n w i = w i ++ [(i, [])] /\ w i = []).
      { assert (E0 : w i = []) by (destruct (w i) as [|[j e] t] eqn:Q; [reflexivity|]; exfalso; destruct (strict a W WA i j e Hi) as [A B]; [fold w; rewrite Q; now left|lia]). rewrite E0. split; [|reflexivity]. destruct n; [reflexivity|]. cbn [repeat_ways]. rewrite E0. reflexivity. }
      destruct E as [E E0]. rewrite E, wt_app. rewrite wt_one. eapply real_two; [exact H1|exact H3|eapply nothing_notbr; exact H4|exact L1| |].
      + apply FA; [eapply node_lt; exact H2|exact Hi|]. intros j e I0. fold w in I0. rewrite E0 in I0. destruct I0.
      + eapply real_pass; [exact H4|now left|]. apply (R i []). rewrite E. apply in_or_app. right. now left.
    - destruct n as [|n].
      + assert (E0 : w i = []) by (destruct (w i) as [|[j e] t] eqn:Q; [reflexivity|]; exfalso; destruct (strict a W WA i j e Hi) as [A B]; [fold w; rewrite Q; now left|lia]).
        change (repeat_ways 0 w i) with ([] ++ [(i, @nil ev)]). rewrite <- E0 at 1. rewrite wt_app, wt_one. eapply real_two; [exact H1|exact H3|eapply nothing_notbr; exact H4|exact L1| |].
        * apply FA; [eapply node_lt; exact H2|exact Hi|]. intros j e I0. fold w in I0. rewrite E0 in I0. destruct I0.
        * eapply real_pass; [exact H4|now left|]. apply (R i []). now left.
      + cbn [repeat_ways] in *. rewrite wt_app, wt_one, wt_assoc. eapply real_two; [exact H1|exact H3|eapply nothing_notbr; exact H4|exact L1| |].
        * apply FA; [eapply node_lt; exact H2|exact Hi|]. intros j e I0. destruct (strict a W WA i j e Hi I0) as [A B].
          eapply real_pass; [exact H2|now right|]. apply IH; [lia|lia|lia|]. intros j' e' I1. apply (R j' (e' ++ e)). apply in_or_app. left. apply in_wt. eauto 7.
        * eapply real_pass; [exact H4|now left|]. apply (R i []). apply in_or_app. right. now left. }
  intros i K Hi R. cbn [ways] in *. fold w in R. fold w. apply (G (length s - i) (length s) i K); auto; lia.
Qed.
Lemma plus_loop_ok : forall a p b c q, wf_atom a -> w_atom a = true -> frag p b (ways s (den_atom a)) ->
  is_node code b oBRANCH (Some c) -> is_node code (b + 3) oBACK (Some p) -> is_node code c oBRANCH (Some (c + 3)) -> is_node code (c + 3) oNOTHING (Some q) -> b < c ->
  frag p q (ways s (Plus (den_atom a))).
Proof.
  intros a p b c q W WA FA H1 H2 H3 H4 L1 Hq. set (w := ways s (den_atom a)) in *.
  assert (Hb : b < length code) by (eapply node_lt; exact H1).
  assert (E0 : forall i, i = length s -> w i = []).
  { intros i ->. destruct (w (length s)) as [|[j e] t] eqn:Q; [reflexivity|]. exfalso. destruct (strict a W WA (length s) j e (le_n _)) as [A B]; [fold w; rewrite Q; now left|lia]. }
  assert (G : forall m n i K, length s - i <= m -> length s - i <= n -> i <= length s -> (forall j e, In (j, e) (repeat_ways n w i) -> real q j (K j)) -> real b i (ways_then (repeat_ways n w i) K)).
  { induction m as [|m IH]; intros n i K Hm Hn Hi R.
    - assert (E : repeat_ways n w i = w i ++ [(i, [])] ) by (destruct n; cbn [repeat_ways]; rewrite (E0 i ltac:(lia)); reflexivity).
      rewrite E, wt_app, wt_one. eapply real_two; [exact H1|exact H3|eapply nothing_notbr; exact H4|exact L1| |].
      + eapply real_pass; [exact H2|now right|]. apply FA; [exact Hb|exact Hi|]. intros j e I0. fold w in I0. rewrite (E0 i ltac:(lia)) in I0. destruct I0.
      + eapply real_pass; [exact H4|now left|]. apply (R i []). rewrite E. apply in_or_app. right. now left.
    - destruct n as [|n].
      + pose proof (E0 i ltac:(lia)) as E1. change (repeat_ways 0 w i) with ([] ++ [(i, @nil ev)]). rewrite <- E1 at 1. rewrite wt_app, wt_one. eapply real_two; [exact H1|exact H3|eapply nothing_notbr; exact H4|exact L1| |].
        * eapply real_pass; [exact H2|now right|]. apply FA; [exact Hb|exact Hi|]. intros j e I0. fold w in I0. rewrite E1 in I0. destruct I0.
        * eapply real_pass; [exact H4|now left|]. apply (R i []). now left.
      + cbn [repeat_ways] in *. rewrite wt_app, wt_one, wt_assoc. eapply real_two; [exact H1|exact H3|eapply nothing_notbr; exact H4|exact L1| |].
        * eapply real_pass; [exact H2|now right|]. apply FA; [exact Hb|exact Hi|]. intros j e I0. destruct (strict a W WA i j e Hi I0) as [A B].
          apply IH; [lia|lia|lia|]. intros j' e' I1. apply (R j' (e' ++ e)). apply in_or_app. left. apply in_wt. eauto 7.
        * eapply real_pass; [exact H4|now left|]. apply (R i []). apply in_or_app. right. now left. }
  intros i K Hi R. cbn [ways] in *. fold w in R. fold w. rewrite wt_assoc. apply FA; [exact Hb|exact Hi|]. intros j e I0. destruct (strict a W WA i j e Hi I0) as [A B].
  apply (G (length s - j) (length s) j K); auto; [lia|]. intros j' e' I1. apply (R j' (e' ++ e)). apply in_wt. eauto 7.
Qed.
Definition alts_ok (l : alts_t) : Prop := forall p q, at_alts code l p q -> notbr code q -> q < length code -> forall i K, i <= length s ->
  (forall j e, In (j, e) (ways s (den_alts l) i) -> real q j (K j)) ->
  exists ps ls, chain code p ps /\ Forall2 (fun p l => real (p + 3) i l) ps ls /\ concat ls = ways_then (ways s (den_alts l) i) K.
Lemma alts_frag : forall l p q, alts_ok l -> at_alts code l p q -> notbr code q -> frag p q (ways s (den_alts l)).
Proof. intros l p q A L1 N Hq i K Hi R. destruct (A p q L1 N Hq i K Hi R) as (ps & ls & C & F & <-). eapply real_chain; eauto. Qed.
Lemma match_all :
  (forall a, wf_atom a -> forall p q, at_atom code a p (Some q) -> frag p q (wa s a)) /\
  (forall x, wf_piece x -> forall p q, at_piece code x p (Some q) -> frag p q (wp x)) /\
  (forall b, wf_branch b -> forall p q, at_branch code b p (Some q) -> frag p q (ways s (den_branch b))) /\
  (forall l, wf_alts l -> alts_ok l).
Proof.
  apply ast_ind.
  - intros W p q A. apply frag_leaf; auto; discriminate.
  - intros W p q A. apply frag_leaf; auto; discriminate.
  - intros W p q A. apply frag_leaf; auto; discriminate.
  - intros neg em cs W p q A. apply frag_leaf; auto; discriminate.
  - intros t W p q A. apply frag_leaf; auto; discriminate.
  - intros n l IH [W1 W2] p q A Hq i K Hi R. cbn [at_atom] in A. destruct A as (c & A1 & A2 & A3). cbn [wa den_atom ways] in *.
    assert (NB : notbr code c) by (destruct (node_op _ _ _ _ A3) as (o & E & O); exists o; split; [exact E|]; rewrite O; ops).
    pose proof (alts_frag l (p + 3) c (IH W2) A2 NB (node_lt _ _ _ _ A3) i (fun j => map (fun '(k, e) => (k, e ++ [Leave n j])) (K j)) Hi) as FR.
    assert (R' : forall j e, In (j, e) (ways s (den_alts l) i) -> real c j (map (fun '(k, e) => (k, e ++ [Leave n j])) (K j))).
    { intros j e I0. eapply real_close; [exact A3|exact W1|]. apply (R j (Leave n j :: e ++ [Enter n i])). apply in_map_iff. exists (j, e). auto. }
    specialize (FR R'). apply (real_open s code p (p + 3) n i _ A1 W1) in FR.
    assert (E : ways_then (map (fun '(j, e) => (j, Leave n j :: e ++ [Enter n i])) (ways s (den_alts l) i)) K = map (fun '(j, e) => (j, e ++ [Enter n i])) (ways_then (ways s (den_alts l) i) (fun j => map (fun '(k, e) => (k, e ++ [Leave n j])) (K j)))).
    { generalize (ways s (den_alts l) i). intro L0. induction L0 as [|[j e] L0 IHL]; [reflexivity|]. cbn [map]. change ((j, Leave n j :: e ++ [Enter n i]) :: map (fun '(j, e) => (j, Leave n j :: e ++ [Enter n i])) L0) with ([(j, Leave n j :: e ++ [Enter n i])] ++ map (fun '(j, e) => (j, Leave n j :: e ++ [Enter n i])) L0).
      change ((j, e) :: L0) with ([(j, e)] ++ L0). rewrite !wt_app, map_app, IHL. f_equal. unfold ways_then. cbn [flat_map]. rewrite !app_nil_r, !map_map. apply map_ext. intros [k e']. rewrite <- !app_assoc. reflexivity. }
    rewrite E. exact FR.
  - intros a IH W p q A. cbn [wp at_piece wf_piece] in *. now apply IH.
  - intros a IH (W & WA & WL) p q A. cbn [wp at_piece wf_piece] in *. destruct (simple a) eqn:Sa.
    + destruct A as [A1 A2]. exact (frag_simple s code a p q oSTAR Sa W A2 A1 (or_introl eq_refl)).
    + destruct A as (b & k & A1 & A2 & A3 & A4 & A5 & A6). apply (star_loop_ok a p b k q); auto. eapply frag_ext; [apply (wa_ways a W WL)|]. now apply IH.
  - intros a IH (W & WA & WL) p q A. cbn [wp at_piece wf_piece] in *. destruct (simple a) eqn:Sa.
    + destruct A as [A1 A2]. exact (frag_simple s code a p q oPLUS Sa W A2 A1 (or_intror eq_refl)).
    + destruct A as (b & c & A1 & A2 & A3 & A4 & A5 & A6). apply (plus_loop_ok a p b c q); auto. eapply frag_ext; [apply (wa_ways a W WL)|]. now apply IH.
  - intros a IH (W & WL) p q A. cbn [wp at_piece wf_piece] in *. destruct A as (b & k & A1 & A2 & A3 & -> & A5 & A6).
    intros Hq i K Hi R. cbn [ways] in *. rewrite wt_app, wt_one. eapply real_two; [exact A1|exact A3|eapply nothing_notbr; exact A5|exact A6| |].
    + pose proof (IH W (p + 3) (b + 3) A2 (node_lt _ _ _ _ A5) i K Hi) as FR. rewrite (wa_ways a W WL) in FR. apply FR. intros j e I0. eapply real_pass; [exact A5|now left|]. apply (R j e). apply in_or_app. now left.
    + eapply real_pass; [exact A5|now left|]. apply (R i []). apply in_or_app. right. now left.
  - intros _ p q A Hq i K Hi R. cbn [at_branch den_branch ways] in *. rewrite wt_one. eapply real_pass; [exact A|now left|]. apply (R i []). now left.
  - intros x IHx b IHb [Wx Wb] p q A. destruct b as [|x' b'].
    + cbn [at_branch] in A. apply frag_ext with (wp x); [|now apply IHx]. intro i. cbn [den_branch]. rewrite den_then_ways. cbn [ways]. now rewrite wt_unit.
    + set (b := BCons x' b') in *. change (at_branch code (BCons x b) p (Some q)) with (exists m, at_piece code x p (Some m) /\ at_branch code b m (Some q)) in A. destruct A as (m & A1 & A2).
      apply frag_ext with (fun i => ways_then (wp x i) (ways s (den_branch b))); [intro i; cbn [den_branch]; symmetry; apply den_then_ways|].
      eapply frag_seq; [apply IHx; eauto|eapply at_lt; eauto|apply IHb; auto|apply wp_bound; exact Wx].
  - intros b IH W p q A N Hq i K Hi R. cbn [at_alts den_alts wf_alts] in *. destruct A as [A1 A2]. exists [p], [ways_then (ways s (den_branch b) i) K]. split; [eapply ch_last; eauto|]. split; [|cbn; apply app_nil_r].
    constructor; [|constructor]. apply IH with (q := q); auto.
  - intros b IHb l IHl [Wb Wl] p q A N Hq i K Hi R. cbn [at_alts den_alts] in *. destruct A as (m & A1 & A2 & A3 & A4). cbn [ways] in *.
    destruct (IHl Wl m q A3 N Hq i K Hi) as (ps & ls & C & F & E); [intros; eapply R; apply in_or_app; right; eassumption|].
    exists (p :: ps), (ways_then (ways s (den_branch b) i) K :: ls). split; [eapply ch_more; eauto|]. split; [|cbn [concat]; rewrite wt_app; congruence].
    constructor; [|exact F]. apply (IHb Wb (p + 3) q A2 Hq i K Hi). intros j e I0. apply (R j e). apply in_or_app. now left.
Qed.
End F.
(** A whole program. *)
Lemma match_prog : forall s l, wf_alts l -> length (prog l) < B64 -> forall i, i <= length s -> real s (prog l) 1 i (ways s (den_alts l) i).
Proof.
  intros s l W H i Hi. assert (LL : length (prog l) = 1 + length (galts l None None) + 3) by (unfold prog; cbn [length]; rewrite app_length, len_node, (len_alts l (Some 0) (Some 0)); lia).
  pose proof B64_big as BB.
  pose proof (proj2 (proj2 (proj2 layout)) l W (prog l) [MAGIC] (node oEND 0) eq_refl ltac:(lia)) as A. change (length [MAGIC]) with 1 in A.
  assert (E : is_node (prog l) (1 + length (galts l None None)) oEND None).
  { eapply (is_node_eq _ (MAGIC :: galts l (Some 0) (Some 0)) oEND 0 []); [unfold prog; now rewrite app_nil_r|cbn [length]; rewrite (len_alts l (Some 0) (Some 0)); reflexivity|ops|ops|lia|reflexivity]. }
  assert (N : notbr (prog l) (1 + length (galts l None None))) by (destruct (node_op _ _ _ _ E) as (o & Eo & O); exists o; split; [exact Eo|]; rewrite O; discriminate).
  pose proof (alts_frag s (prog l) l 1 _ (proj2 (proj2 (proj2 (match_all s (prog l)))) l W) A N (node_lt _ _ _ _ E) i (fun j => [(j, [])]) Hi) as R. rewrite wt_unit in R. apply R. intros j e _. now apply real_end.
Qed.
