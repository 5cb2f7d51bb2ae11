(** GlobProofs2.v -- patterns that are accepted can be read. *)
From Coq Require Import List Ascii Bool Arith Lia.
Import ListNotations.
From Verif Require Import Base RegexModel RegexSpec RegexAst RegexGen RegexSim2 RegexGrammar RegexGrammar2 RegexCompile RegexCompile2 RegexWays RegexProps RegexProps2 RegexSize GlobModel GlobSpec GlobProofs.

Lemma undouble_text : forall k t, length t <= k -> forall p cs, class_text p (double_backslashes t) cs -> exists cs0, class_text p t cs0.
Proof.
  induction k as [|k IH]; intros t Hk p cs H; [destruct t; [exists []; constructor|cbn in Hk; lia]|].
  destruct t as [|c t]; [exists []; constructor|]. cbn [length] in Hk.
  change (double_backslashes (c :: t)) with ((if Ascii.eqb c "\" then [c; c] else [c]) ++ double_backslashes t) in H.
  destruct (Ascii.eqb_spec c "\") as [->|NB]; cbn [app] in H.
  - inversion H as [|q E|p0 q t0 cs0 N LE H1 E|p0 q t0 cs0 N1 N2 H1 E]; subst; clear H.
    inversion H1 as [|q E|p0 q t1 cs1 N LE H2 E|p0 q t1 cs1 N3 N4 H2 E]; subst; clear H1.
    destruct (IH t ltac:(lia) _ _ H2) as [cs' H3]. exists (("\", "\")%char :: cs'). now apply ct_char.
  - inversion H as [|q E|p0 q t0 cs0 N LE H1 E|p0 q t0 cs0 N1 N2 H1 E]; subst; clear H.
    + destruct t as [|d t]; [exists [("-", "-")%char]; subst; constructor|]. exfalso. match goal with X : [] = double_backslashes _ |- _ => revert X | X : double_backslashes _ = [] |- _ => revert X end. change (double_backslashes (d :: t)) with ((if Ascii.eqb d "\" then [d; d] else [d]) ++ double_backslashes t). destruct (Ascii.eqb d "\"); discriminate.
    + destruct t as [|d t]; [discriminate|]. cbn [length] in Hk. change (double_backslashes (d :: t)) with ((if Ascii.eqb d "\" then [d; d] else [d]) ++ double_backslashes t) in *.
      destruct (Ascii.eqb_spec d "\") as [->|ND]; cbn [app] in *.
      * match goal with X : _ = q :: t0 |- _ => injection X as <- <- | X : q :: t0 = _ |- _ => injection X as -> -> end. inversion H1 as [|q E|p1 q t1 cs1 N4 LE1 H2 E|p1 q t1 cs1 N4 N5 H2 E]; subst.
        destruct (IH t ltac:(lia) _ _ H2) as [cs' H3]. eexists. apply ct_range; eassumption.
      * match goal with X : _ = q :: t0 |- _ => injection X as <- <- | X : q :: t0 = _ |- _ => injection X as -> -> end. destruct (IH t ltac:(lia) _ _ H1) as [cs' H3]. eexists. apply ct_range; eassumption.
    + destruct (IH t ltac:(lia) _ _ H1) as [cs' H3]. eexists. apply ct_char; eassumption.
Qed.
Lemma undouble : forall b cs, class_body (double_backslashes b) cs -> exists cs0, class_body b cs0.
Proof.
  intros [|p t] cs H; [inversion H|]. change (double_backslashes (p :: t)) with ((if Ascii.eqb p "\" then [p; p] else [p]) ++ double_backslashes t) in H.
  destruct (Ascii.eqb_spec p "\") as [->|N]; cbn [app] in H; inversion H as [p0 t0 cs0 H1 E1 E2]; subst.
  - inversion H1 as [|q E|p1 q t1 cs1 N4 LE1 H2 E|p1 q t1 cs1 N4 N5 H2 E]; subst. destruct (undouble_text _ t (le_n _) _ _ H2) as [cs' H3]. eexists. constructor. exact H3.
  - destruct (undouble_text _ t (le_n _) _ _ H1) as [cs' H3]. eexists. constructor. exact H3.
Qed.
Lemma not_mult : forall p, is_mult (pk (convert 0 p ++ L "$")) = false.
Proof.
  intros [|c p]; [reflexivity|]. cbn [convert]. destruct (Ascii.eqb c "*"); [reflexivity|]. destruct (Ascii.eqb c "?"); [reflexivity|]. destruct (Ascii.eqb c "["); [destruct (bracket p); reflexivity|].
  destruct (is_alpha c || is_digit c)%bool eqn:A; [|reflexivity]. cbn [app pk]. destruct c as [[] [] [] [] [] [] [] []]; try discriminate A; reflexivity.
Qed.
Definition alnumb (c : ascii) : bool := (is_alpha c || is_digit c)%bool.
Lemma convert_alnum : forall c p, alnumb c = true -> convert 0 (c :: p) = c :: convert 0 p.
Proof. intros c p A. cbn [convert]. unfold alnumb in A. rewrite A. destruct c as [[] [] [] [] [] [] [] []]; try discriminate A; reflexivity. Qed.
(** A run of plain characters at the front is a run of letters and digits. *)
Lemma plain_run : forall p k, k <= length (take_while (fun c => negb (existsb (Ascii.eqb c) META)) (convert 0 p ++ L "$")) ->
  exists a q, p = a ++ q /\ length a = k /\ forallb alnumb a = true /\ skipn k (convert 0 p ++ L "$") = convert 0 q ++ L "$".
Proof.
  induction p as [|c p IH]; intros k H.
  - exists [], []. assert (k = 0) by (vm_compute in H; lia). subst k. repeat split.
  - destruct (alnumb c) eqn:A.
    + rewrite (convert_alnum c p A) in *. destruct k as [|k]; [exists [], (c :: p); repeat split; now rewrite (convert_alnum c p A)|].
      destruct (IH k) as (a & q & E1 & E2 & E3 & E4).
      { cbn [app take_while] in H. destruct (negb _); [cbn [length] in H; lia|cbn in H; lia]. }
      exists (c :: a), q. cbn [app length forallb skipn]. repeat split; [congruence|congruence|now rewrite A, E3|exact E4].
    + exists [], (c :: p). assert (k = 0); [|subst k; repeat split]. enough (length (take_while (fun c => negb (existsb (Ascii.eqb c) META)) (convert 0 (c :: p) ++ L "$")) = 0) by lia.
      cbn [convert]. destruct (Ascii.eqb c "*"); [reflexivity|]. destruct (Ascii.eqb c "?"); [reflexivity|]. destruct (Ascii.eqb c "["); [destruct (bracket p); reflexivity|]. unfold alnumb in A. rewrite A. reflexivity.
Qed.
Lemma chars_glob : forall a q l, forallb alnumb a = true -> glob_text q l -> exists l', glob_text (a ++ q) l'.
Proof.
  induction a as [|c a IH]; intros q l A H; [eauto|]. cbn [forallb] in A. apply andb_true_iff in A. destruct A as [A1 A2]. destruct (IH q l A2 H) as [l' H']. exists (GChr c :: l'). cbn [app]. apply gl_chr; auto; intros ->; discriminate A1.
Qed.
Lemma no_close_unique : forall a b x y, ~ In "]"%char a -> ~ In "]"%char b -> a ++ "]"%char :: x = b ++ "]"%char :: y -> a = b /\ x = y.
Proof.
  induction a as [|c a IH]; intros [|d b] x y N M E; cbn [app] in E; [injection E as E1|injection E as E1 E2..].
  - auto.
  - elim M. left. congruence.
  - elim N. left. congruence.
  - destruct (IH b x y) as [A B]; [intro K; apply N; now right|intro K; apply M; now right|exact E2|]. split; congruence.
Qed.
Lemma double_close : forall t, ~ In "]"%char t -> ~ In "]"%char (double_backslashes t).
Proof. intros t N K. unfold double_backslashes in K. apply in_flat_map in K. destruct K as (c & I0 & K). destruct (Ascii.eqb c "\"); cbn in K; intuition congruence. Qed.
(** A class read by the parser from a converted bracket expression. *)
Lemma set_read : forall b1 u em it q, b1 <> [] -> ~ In "]"%char (tl b1) -> p_set (double_backslashes b1 ++ "]"%char :: u) = Some (em, it, q) -> q = u /\ exists cs, class_body b1 cs.
Proof.
  intros b1 u em it q NE NC E. apply p_set_sound in E. destruct E as (body & Et & B).
  destruct b1 as [|p t]; [congruence|]. cbn [tl] in NC. inversion B as [p0 t0 cs0 T E1 E2]; subst. pose proof (text_no_close _ _ _ T) as N0.
  assert (D : exists t', double_backslashes (p :: t) = p :: t' /\ ~ In "]"%char t').
  { change (double_backslashes (p :: t)) with ((if Ascii.eqb p "\" then [p; p] else [p]) ++ double_backslashes t). pose proof (double_close t NC) as DC. destruct (Ascii.eqb_spec p "\") as [->|]; eexists; (split; [reflexivity|]); cbn [app]; [|exact DC]. intros [K|K]; [discriminate|auto]. }
  destruct D as (t' & D & Nt). rewrite D in Et. cbn [app] in Et. injection Et as -> Et. destruct (no_close_unique _ _ _ _ Nt N0 Et) as [-> ->]. split; [reflexivity|]. eapply undouble. rewrite D. exact B.
Qed.
Lemma bracket_some : forall p, closed p -> bracket p <> None.
Proof.
  intros p (b1 & r & NE & U). unfold bracket. assert (T : snd (take_mark p) = unmarked p) by (unfold take_mark, unmarked; destruct p as [|x p]; [reflexivity|]; destruct (_ || _)%bool; reflexivity).
  destruct (take_mark p) as [m r1]. cbn [snd] in T. subst r1. rewrite U. destruct b1 as [|x b1]; [congruence|].
  assert (Q : forall y, In "]"%char y -> length (take_while (fun c => negb (Ascii.eqb c "]")) y) < length y).
  { clear. induction y as [|c y IH]; intro H; [destruct H|]. cbn [take_while]. destruct (Ascii.eqb_spec c "]") as [->|N]; [cbn; lia|]. destruct H as [H|H]; [congruence|]. cbn [negb length]. specialize (IH H). lia. }
  cbn [app take_close]. destruct (Ascii.eqb x "]").
  - rewrite (proj2 (Nat.ltb_lt _ _)); [discriminate|]. apply Q. apply in_or_app. right. now left.
  - rewrite (proj2 (Nat.ltb_lt _ _)); [discriminate|]. apply Q. right. apply in_or_app. right. now left.
Qed.
Lemma readable : forall k p, length p <= k -> ~ In NUL p -> forall n np b t' np', pa_pieces n (convert 0 p ++ L "$") np = COk (b, t', np') -> exists l, glob_text p l.
Proof.
  induction k as [|k IH]; intros p Hk N n np b t' np' E; [destruct p; [exists []; constructor|cbn in Hk; lia]|].
  destruct p as [|c p]; [exists []; constructor|]. cbn [length] in Hk. assert (N1 : ~ In NUL p) by (intro X; apply N; now right).
  destruct n as [|n]; [discriminate|]. cbn [pa_pieces] in E. destruct (stop _) eqn:ST.
  { exfalso. cbn [convert] in ST. destruct (Ascii.eqb c "*"); [discriminate|]. destruct (Ascii.eqb c "?"); [discriminate|]. destruct (Ascii.eqb c "["); [destruct (bracket p); discriminate|]. destruct (is_alpha c || is_digit c)%bool eqn:A; [|discriminate]. destruct c as [[] [] [] [] [] [] [] []]; discriminate. }
  destruct (pa_piece n _ np) as [[[pc t1] n1]| | |] eqn:E1; cbn [cbind] in E; try discriminate. destruct (pa_pieces n t1 n1) as [[[b2 t2] n2]| | |] eqn:E2; cbn [cbind] in E; try discriminate. clear E ST.
  destruct n as [|n]; [discriminate|]. cbn [pa_piece] in E1. destruct (pa_atom n _ np) as [[[a t3] n3]| | |] eqn:E3; cbn [cbind] in E1; try discriminate.
  destruct n as [|n]; [discriminate|].
  (* what follows an atom other than the class of an asterisk *)
  assert (NX : forall q, length q <= k -> ~ In NUL q -> t3 = convert 0 q ++ L "$" -> exists l, glob_text q l).
  { intros q Hq Nq Q. subst t3. rewrite not_mult in E1. cbn [negb] in E1. injection E1 as <- <- <-. eapply IH; eauto. }
  cbn [convert] in E3. destruct (Ascii.eqb_spec c "*") as [->|C1].
  { change ((L "[^/]*" ++ convert 0 p) ++ L "$") with (L "[^/]*" ++ (convert 0 p ++ L "$")) in E3. cbn [pa_atom] in E3. change (L "[^/]*" ++ (convert 0 p ++ L "$")) with ("["%char :: "^"%char :: "/"%char :: "]"%char :: "*"%char :: (convert 0 p ++ L "$")) in E3.
    cbn in E3. injection E3 as <- <- <-. cbn [pk is_mult negb orb] in E1. cbn in E1. rewrite not_mult in E1. injection E1 as <- <- <-. destruct (IH p ltac:(lia) N1 _ _ _ _ _ E2) as [l H]. exists (GStar :: l). now constructor. }
  destruct (Ascii.eqb_spec c "?") as [->|C2].
  { change ((L "[^/]" ++ convert 0 p) ++ L "$") with ("["%char :: "^"%char :: "/"%char :: "]"%char :: (convert 0 p ++ L "$")) in E3. cbn in E3. injection E3 as <- <- <-. destruct (NX p ltac:(lia) N1 eq_refl) as [l H]. exists (GOne :: l). now constructor. }
  destruct (Ascii.eqb_spec c "[") as [->|C3].
  { destruct (bracket p) as [bt|] eqn:B.
    - destruct (bracket_closed p bt B) as (m & b1 & r & -> & Ep & NE & U & NC & M).
      assert (CV : convert (S (length (m ++ b1))) p = convert 0 r).
      { rewrite Ep. replace (S (length (m ++ b1))) with (length (m ++ b1 ++ ["]"%char])) by (rewrite !app_length; cbn; lia). replace (m ++ b1 ++ "]"%char :: r) with ((m ++ b1 ++ ["]"%char]) ++ r) by (rewrite <- !app_assoc; reflexivity). apply convert_skip. }
      rewrite CV in E3. assert (Lr : length r <= k) by (rewrite Ep in Hk; rewrite !app_length in Hk; cbn in Hk; lia). assert (Nr : ~ In NUL r) by (intro X; apply N1; rewrite Ep; apply in_or_app; right; apply in_or_app; right; now right).
      assert (MK : (m = [] /\ forall c0 r0, b1 = c0 :: r0 -> c0 <> "!"%char /\ c0 <> "^"%char) \/ exists m0, m = [m0] /\ (m0 = "!"%char \/ m0 = "^"%char)).
      { destruct M as [[-> M]|[-> | ->]]; [left; split; [reflexivity|]|right; eauto|right; eauto]. intros c0 r0 ->. rewrite Ep in M. cbn [app unmarked] in M. destruct (Ascii.eqb_spec c0 "!") as [->|]; [exfalso; cbn in M; apply (f_equal (@length ascii)) in M; cbn in M; lia|]. destruct (Ascii.eqb_spec c0 "^") as [->|]; [exfalso; cbn in M; apply (f_equal (@length ascii)) in M; cbn in M; lia|]. auto. }
      destruct MK as [[-> NM]|(m0 & -> & M0)].
      + cbn [app] in *. rewrite (bracket_regex_set b1 NM) in E3.
        change ((L "[" ++ double_backslashes b1 ++ L "]") ++ convert 0 r) with ("["%char :: ((double_backslashes b1 ++ L "]") ++ convert 0 r)) in E3. cbn [app] in E3. rewrite <- !app_assoc in E3. cbn [pa_atom] in E3.
        change (Ascii.eqb "[" "^") with false in E3. change (Ascii.eqb "[" "$") with false in E3. change (Ascii.eqb "[" ".") with false in E3. change (Ascii.eqb "[" "[") with true in E3. cbn iota in E3.
        change (double_backslashes b1 ++ L "]" ++ convert 0 r ++ L "$") with (double_backslashes b1 ++ "]"%char :: (convert 0 r ++ L "$")) in E3.
        assert (PC : p_class (double_backslashes b1 ++ "]"%char :: (convert 0 r ++ L "$")) = match p_set (double_backslashes b1 ++ "]"%char :: (convert 0 r ++ L "$")) with Some (em, it, q) => Some (false, em, it, q) | None => None end).
        { destruct b1 as [|x b1]; [congruence|]. destruct (NM x b1 eq_refl) as [_ X]. change (double_backslashes (x :: b1)) with ((if Ascii.eqb x "\" then [x; x] else [x]) ++ double_backslashes b1). unfold p_class. destruct (Ascii.eqb x "\"); cbn [app]; destruct (Ascii.eqb_spec x "^"); congruence. }
        rewrite PC in E3. destruct (p_set _) as [[[em it] q]|] eqn:PS; [|discriminate]. injection E3 as <- <- <-. apply set_read in PS; [|exact NE|exact NC]. destruct PS as [-> [cs CB]].
        destruct (NX r Lr Nr eq_refl) as [l H]. exists (GSet false cs :: l). rewrite Ep. exact (gl_set b1 cs r l CB NM H).
      + change ([m0] ++ b1) with (m0 :: b1) in E3. rewrite (bracket_regex_not m0 b1 M0) in E3.
        change ((L "[^" ++ double_backslashes b1 ++ L "]") ++ convert 0 r) with ("["%char :: "^"%char :: ((double_backslashes b1 ++ L "]") ++ convert 0 r)) in E3. cbn [app] in E3. rewrite <- !app_assoc in E3. cbn [pa_atom] in E3.
        change (Ascii.eqb "[" "^") with false in E3. change (Ascii.eqb "[" "$") with false in E3. change (Ascii.eqb "[" ".") with false in E3. change (Ascii.eqb "[" "[") with true in E3. cbn iota in E3.
        change (double_backslashes b1 ++ L "]" ++ convert 0 r ++ L "$") with (double_backslashes b1 ++ "]"%char :: (convert 0 r ++ L "$")) in E3. cbn [p_class] in E3. change (Ascii.eqb "^" "^") with true in E3. cbn iota in E3.
        destruct (p_set _) as [[[em it] q]|] eqn:PS; [|discriminate]. injection E3 as <- <- <-. apply set_read in PS; [|exact NE|exact NC]. destruct PS as [-> [cs CB]].
        destruct (NX r Lr Nr eq_refl) as [l H]. exists (GSet true cs :: l). rewrite Ep. exact (gl_not m0 b1 cs r l M0 CB H).
    - change ((L "\[" ++ convert 0 p) ++ L "$") with ("\"%char :: "["%char :: (convert 0 p ++ L "$")) in E3. cbn in E3. injection E3 as <- <- <-. destruct (NX p ltac:(lia) N1 eq_refl) as [l H]. exists (GChr "[" :: l). apply gl_open; [|exact H].
      intro CL. exact (bracket_some p CL B). }
  destruct (is_alpha c || is_digit c)%bool eqn:A.
  - cbn [app] in E3. fold (alnumb c) in A. pose proof (convert_alnum c p A) as CA.
    assert (E4 : pa_atom (S n) (convert 0 (c :: p) ++ L "$") np = COk (ALit (firstn (p_run (convert 0 (c :: p) ++ L "$")) (convert 0 (c :: p) ++ L "$")), skipn (p_run (convert 0 (c :: p) ++ L "$")) (convert 0 (c :: p) ++ L "$"), np)).
    { rewrite CA. cbn [pa_atom app]. destruct c as [[] [] [] [] [] [] [] []]; try discriminate A; reflexivity. }
    rewrite CA in E4. cbn [app] in E4. rewrite E4 in E3. clear E4. injection E3 as <- Q <-. change (c :: convert 0 p ++ L "$") with ((c :: convert 0 p) ++ L "$") in *. rewrite <- CA in *.
    assert (R : p_run (convert 0 (c :: p) ++ L "$") <= length (take_while (fun c => negb (existsb (Ascii.eqb c) META)) (convert 0 (c :: p) ++ L "$"))) by (unfold p_run; generalize (length (take_while (fun c => negb (existsb (Ascii.eqb c) META)) (convert 0 (c :: p) ++ L "$"))); intro len; cbv zeta; destruct (_ && is_mult _)%bool; lia).
    destruct (plain_run (c :: p) _ R) as (al & q & Ep & La & Fa & Sk). rewrite Sk in Q.
    assert (P1 : 1 <= p_run (convert 0 (c :: p) ++ L "$")).
    { rewrite CA. cbn [app]. apply p_run_pos. destruct c as [[] [] [] [] [] [] [] []]; try discriminate A; reflexivity. }
    assert (Lq : length q <= k) by (apply (f_equal (@length ascii)) in Ep; rewrite app_length in Ep; cbn [length] in Ep; lia).
    destruct (NX q Lq ltac:(intro X; apply N; rewrite Ep; apply in_or_app; now right) (eq_sym Q)) as [l H]. rewrite Ep. exact (chars_glob al q l Fa H).
  - change ((["\"%char; c] ++ convert 0 p) ++ L "$") with ("\"%char :: c :: (convert 0 p ++ L "$")) in E3. cbn in E3. injection E3 as <- <- <-. destruct (NX p ltac:(lia) N1 eq_refl) as [l H]. exists (GChr c :: l). now apply gl_chr.
Qed.
Lemma readable_whole : forall p x, ~ In NUL p -> compile_string (pattern_to_regex true p) = COk (Some x) -> exists l, glob_text p l.
Proof.
  intros p x N E. pose proof (regex_nul p N) as NR. unfold compile_string in E. rewrite c_str_id in E by exact NR.
  destruct (compile_ok _ NR) as [(l & np & P & _)|(_ & H)]; [|congruence]. unfold okpass in P. unfold pattern_to_regex in P.
  set (u := convert 0 p ++ L "$") in *. destruct (compile_fuel (L "^" ++ u)) as [|f]; [discriminate|]. cbn [pa_reg andb] in P.
  destruct (pa_branch f (L "^" ++ u) 1) as [[[b t1] n1]| | |] eqn:E1; cbn [cbind] in P; try discriminate. clear P. destruct f as [|f]; [discriminate|]. cbn [pa_branch] in E1. destruct f as [|f]; [discriminate|]. cbn [pa_pieces] in E1.
  change (L "^" ++ u) with ("^"%char :: u) in E1. change (stop ("^"%char :: u)) with false in E1. cbn iota in E1.
  destruct (pa_piece f ("^"%char :: u) 1) as [[[pc t2] n2]| | |] eqn:E2; cbn [cbind] in E1; try discriminate. destruct f as [|f]; [discriminate|]. cbn [pa_piece] in E2. destruct f as [|f]; [discriminate|]. cbn [pa_atom] in E2. change (Ascii.eqb "^" "^") with true in E2. cbn [cbind] in E2.
  unfold u in E2. rewrite not_mult in E2. cbn [negb] in E2. injection E2 as <- <- <-.
  destruct (pa_pieces _ _ 1) as [[[b3 t3] n3]| | |] eqn:E3 in E1; cbn [cbind] in E1; try discriminate. eapply readable; [apply le_n|exact N|exact E3].
Qed.
