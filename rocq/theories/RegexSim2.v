(** RegexSim2.v -- the two passes, continued. *)
From Coq Require Import List Ascii Bool Arith Lia.
Import ListNotations.
From Verif Require Import Base RegexModel RegexSpec RegexAst RegexGen RegexPass RegexSim.

Lemma notin_tl : forall (t : str), ~ In NUL t -> ~ In NUL (tl t).
Proof. intros [|c t] H K; [exact (H K)|]. apply H. now right. Qed.
Lemma notin_skipn : forall k (t : str), ~ In NUL t -> ~ In NUL (skipn k t).
Proof. intros k t H K. apply H. rewrite <- (firstn_skipn k t). apply in_or_app. now right. Qed.
Lemma notin_firstn : forall k (t : str), ~ In NUL t -> ~ In NUL (firstn k t).
Proof. intros k t H K. apply H. rewrite <- (firstn_skipn k t). apply in_or_app. now left. Qed.
Lemma take_while_split : forall (p : ascii -> bool) t, t = take_while p t ++ skipn (length (take_while p t)) t.
Proof. intros p t. induction t as [|c t IH]; [reflexivity|]. cbn [take_while]. destruct (p c); [cbn [length skipn app]; now rewrite <- IH|reflexivity]. Qed.
Lemma take_while_all : forall (p : ascii -> bool) t c, In c (take_while p t) -> p c = true.
Proof. intros p t c. induction t as [|x t IH]; [intros []|]. cbn [take_while]. destruct (p x) eqn:E; [|intros []]. intros [->|H]; auto. Qed.
Lemma is_mult_meta : forall c, is_mult c = true -> existsb (Ascii.eqb c) META = true.
Proof.
  intros c H. unfold is_mult in H. rewrite !orb_true_iff, !Ascii.eqb_eq in H. destruct H as [[->| ->]| ->]; reflexivity.
Qed.
(** A literal run that a multiplier follows has one character. *)
Lemma p_run_mult : forall t, is_mult (pk (skipn (p_run t) t)) = true -> p_run t <= 1.
Proof.
  intros t H. unfold p_run in *. set (p := fun c => negb (existsb (Ascii.eqb c) META)) in *.
  destruct (Nat.ltb_spec 1 (length (take_while p t))) as [G|G]; cbn [andb] in *; [|lia].
  destruct (is_mult (pk (skipn (length (take_while p t)) t))) eqn:M; [|congruence]. exfalso.
  pose proof (take_while_split p t) as S1. set (run := take_while p t) in *.
  assert (E : pk (skipn (length run - 1) t) = nth (length run - 1) run NUL).
  { rewrite S1. rewrite skipn_app. replace (length run - 1 - length run) with 0 by lia. cbn [skipn].
    assert (Q : exists x, skipn (length run - 1) run = [x] /\ nth (length run - 1) run NUL = x).
    { clear - G. clearbody run. exists (nth (length run - 1) run NUL). split; [|reflexivity]. revert G. induction run as [|a r IH]; [cbn; lia|]. intro G. destruct r as [|b r]; [cbn in G; lia|].
      cbn [length]. replace (S (S (length r)) - 1) with (S (length (b :: r) - 1)) by (cbn [length]; lia). cbn [skipn nth].
      destruct r; [reflexivity|]. apply IH. cbn [length]. lia. }
    destruct Q as (x & -> & ->). reflexivity. }
  rewrite E in H. assert (I : In (nth (length run - 1) run NUL) run) by (apply nth_In; lia).
  apply take_while_all in I. unfold p in I. apply is_mult_meta in H. rewrite H in I. discriminate.
Qed.
Lemma p_run_pos : forall ch t, existsb (Ascii.eqb ch) META = false -> 1 <= p_run (ch :: t).
Proof.
  intros ch t H. unfold p_run. set (p := fun c => negb (existsb (Ascii.eqb c) META)).
  assert (1 <= length (take_while p (ch :: t))). { cbn [take_while]. unfold p at 1. rewrite H. cbn [negb length]. lia. }
  destruct (Nat.ltb_spec 1 (length (take_while p (ch :: t)))); cbn [andb]; [|lia]. destruct (is_mult _); lia.
Qed.
Ltac cds H := repeat match type of H with
  | cbind ?x _ = COk _ => destruct x as [[[? ?] ?]| | |] eqn:?; cbn [cbind] in H; try discriminate
  end.
Definition WF (t : str) (np : nat) (W : Prop) (t' : str) (np' : nat) : Prop := W /\ ~ In NUL t' /\ 1 <= np'.
Lemma pa_wf : forall n,
  (forall paren t np l t' np', ~ In NUL t -> 1 <= np -> pa_reg n paren t np = COk (l, t', np') -> wf_alts l /\ ~ In NUL t' /\ 1 <= np') /\
  (forall b t np l t' np', ~ In NUL t -> 1 <= np -> wf_branch b -> pa_alts n b t np = COk (l, t', np') -> wf_alts l /\ ~ In NUL t' /\ 1 <= np') /\
  (forall t np b t' np', ~ In NUL t -> 1 <= np -> pa_branch n t np = COk (b, t', np') -> wf_branch b /\ ~ In NUL t' /\ 1 <= np') /\
  (forall t np b t' np', ~ In NUL t -> 1 <= np -> pa_pieces n t np = COk (b, t', np') -> wf_branch b /\ ~ In NUL t' /\ 1 <= np') /\
  (forall t np p t' np', ~ In NUL t -> 1 <= np -> pa_piece n t np = COk (p, t', np') -> wf_piece p /\ ~ In NUL t' /\ 1 <= np') /\
  (forall t np a t' np', ~ In NUL t -> 1 <= np -> pa_atom n t np = COk (a, t', np') -> wf_atom a /\ ~ In NUL t' /\ 1 <= np' /\ (is_mult (pk t') = true -> forall s, a = ALit s -> length s = 1)).
Proof.
  induction n as [|n (IR & IA & IB & IPS & IP & IT)]; [repeat split; discriminate|].
  split; [|split; [|split; [|split; [|split]]]].
  - intros paren t np l t' np' N P E. cbn [pa_reg] in E. destruct (paren && (NSUBEXP <=? np))%bool; [discriminate|].
    cds E.
    assert (P' : 1 <= if paren then S np else np) by (destruct paren; lia).
    destruct (IB _ _ _ _ _ N P' Heqc) as (W1 & N1 & Q1).
    destruct (IA _ _ _ _ _ _ N1 Q1 W1 Heqc0) as (W2 & N2 & Q2).
    destruct paren.
    + destruct (Ascii.eqb _ _); [|discriminate]. injection E as <- <- <-. auto using notin_tl.
    + destruct s0; [|discriminate]. injection E as <- <- <-. auto.
  - intros b t np l t' np' N P W E. cbn [pa_alts] in E. destruct (Ascii.eqb (pk t) "|").
    + cds E. destruct (IB _ _ _ _ _ (notin_tl _ N) P Heqc) as (W1 & N1 & Q1).
      destruct (IA _ _ _ _ _ _ N1 Q1 W1 Heqc0) as (W2 & N2 & Q2). injection E as <- <- <-. cbn [wf_alts]. auto.
    + injection E as <- <- <-. cbn [wf_alts]. auto.
  - intros t np b t' np' N P E. exact (IPS _ _ _ _ _ N P E).
  - intros t np b t' np' N P E. cbn [pa_pieces] in E. destruct (stop t).
    + injection E as <- <- <-. cbn. auto.
    + cds E. destruct (IP _ _ _ _ _ N P Heqc) as (W1 & N1 & Q1). destruct (IPS _ _ _ _ _ N1 Q1 Heqc0) as (W2 & N2 & Q2). injection E as <- <- <-. cbn [wf_branch]. auto.
  - intros t np p t' np' N P E. cbn [pa_piece] in E. cds E. destruct (IT _ _ _ _ _ N P Heqc) as (W1 & N1 & Q1 & ML).
    destruct (is_mult (pk s)) eqn:M; cbn [negb] in E; [|injection E as <- <- <-; cbn; auto].
    destruct (negb (w_atom a) && negb (Ascii.eqb (pk s) "?"))%bool eqn:F; [discriminate|].
    destruct (is_mult (pk (tl s))); [discriminate|]. injection E as <- <- <-.
    split; [|auto using notin_tl]. specialize (ML eq_refl).
    destruct (Ascii.eqb_spec (pk s) "*") as [Q|Q].
    + rewrite Q in F. cbn in F. rewrite andb_true_r in F. cbn. apply negb_false_iff in F. auto.
    + destruct (Ascii.eqb_spec (pk s) "+") as [Q'|Q'].
      * rewrite Q' in F. cbn in F. rewrite andb_true_r in F. cbn. apply negb_false_iff in F. auto.
      * cbn. auto.
  - intros t np a t' np' N P E. cbn [pa_atom] in E. destruct t as [|ch t]; [discriminate|].
    pose proof (notin_tl _ N) as N0. cbn [tl] in N0.
    destruct (Ascii.eqb_spec ch "^") as [|C1]; [injection E as <- <- <-; cbn; repeat split; auto; discriminate|].
    destruct (Ascii.eqb_spec ch "$") as [|C2]; [injection E as <- <- <-; cbn; repeat split; auto; discriminate|].
    destruct (Ascii.eqb_spec ch ".") as [|C3]; [injection E as <- <- <-; cbn; repeat split; auto; discriminate|].
    destruct (Ascii.eqb_spec ch "[") as [|C4].
    { destruct (p_class t) as [[[[neg em] it] q]|] eqn:K; [|discriminate]. injection E as <- <- <-. apply p_class_wf in K; [|exact N0]. destruct K. repeat split; auto; try apply H; discriminate. }
    destruct (Ascii.eqb_spec ch "(") as [|C5].
    { destruct (pa_reg n true t np) as [[[l t1] np1]| | |] eqn:K; cbn [cbind] in E; try discriminate. injection E as <- <- <-.
      destruct (IR _ _ _ _ _ _ N0 P K) as (W & N1 & Q1). repeat split; auto; [|discriminate].
      destruct n; [discriminate|]. cbn [pa_reg] in K. destruct (Nat.leb_spec NSUBEXP np); cbn [andb] in K; [discriminate|]. unfold NSUBEXP in *. lia. }
    destruct (Ascii.eqb ch "|" || Ascii.eqb ch ")")%bool eqn:C6; [discriminate|].
    destruct (is_mult ch) eqn:C7; [discriminate|].
    destruct (Ascii.eqb_spec ch "\") as [|C8].
    { destruct t as [|x t]; [discriminate|]. injection E as <- <- <-. repeat split; auto.
      - discriminate. - intros [Q|[]]. subst. apply N0. now left. - intro. apply N0. now right. - intros _ s Q. injection Q as <-. reflexivity. }
    assert (M : existsb (Ascii.eqb ch) META = false).
    { apply orb_false_iff in C6. destruct C6 as [C6 C6']. unfold is_mult in C7. rewrite !orb_false_iff in C7.
      change META with ["^";"$";".";"[";"(";")";"|";"?";"+";"*";"\"]%char. cbn [existsb]. rewrite !orb_false_iff. rewrite !Ascii.eqb_neq in *. tauto. }
    pose proof (p_run_pos ch t M) as PP. pose proof (p_run_mult (ch :: t)) as PM.
    injection E as <- <- <-. repeat split; auto.
    + intro Q. apply (f_equal (@length ascii)) in Q. rewrite firstn_length in Q. cbn [length] in Q. lia.
    + now apply notin_firstn.
    + now apply notin_skipn.
    + intros Hm s Q. injection Q as <-. specialize (PM Hm). rewrite firstn_length. cbn [length]. lia.
Qed.
