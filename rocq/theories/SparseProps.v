(** SparseProps.v -- C45. *)
From Coq Require Import List Bool PeanoNat Lia FinFun.
Import ListNotations.
From Verif Require Import SparseModel.

Section P.
Context {V : Type}.
Notation matrix := (@matrix V).
(** ---- specification ---- *)
(** Where column (or row) j is stored, and how many cells it has. *)
Definition start (a : matrix) (j : nat) : nat := nth j (a_start a) 0.
Definition cells (a : matrix) (j : nat) : nat :=
  match a_count a with Some c => nth j c 0 | None => nth (S j) (a_start a) 0 - nth j (a_start a) 0 end.
(** A well formed Eigen matrix. *)
Record well_formed (a : matrix) : Prop := {
  w_start : length (a_start a) = S (a_outer a);
  w_count : forall c, a_count a = Some c -> length c = a_outer a;
  w_mono : a_count a = None -> forall j, j < a_outer a -> start a j <= start a (S j);
  w_in : forall j, j < a_outer a -> start a j + cells a j <= length (a_inner a) /\ start a j + cells a j <= length (a_value a) }.
(** All stored positions, in storage order: (outer, position). *)
Definition column (a : matrix) (j : nat) : list (nat * nat) := map (pair j) (seq (start a j) (cells a j)).
Definition stored (a : matrix) : list (nat * nat) := flat_map (column a) (seq 0 (a_outer a)).
Definition cell (a : matrix) (p : nat * nat) : option (nat * nat * V) :=
  match nth_error (a_inner a) (snd p), nth_error (a_value a) (snd p) with Some i, Some v => Some (fst p, i, v) | _, _ => None end.

(** ---- proofs ---- *)
Lemma inner_ok a j : well_formed a -> j < a_outer a -> inner_at a j = Some (start a j, start a j + cells a j).
Proof.
  intros W H. unfold inner_at, start, cells. pose proof (w_start a W) as WS.
  rewrite (nth_error_nth' (a_start a) 0) by lia. destruct (a_count a) as [c|] eqn:E.
  - pose proof (w_count a W c E). rewrite (nth_error_nth' c 0) by lia. reflexivity.
  - rewrite (nth_error_nth' (a_start a) 0) by lia. pose proof (w_mono a W E j H) as M. unfold start in M. do 2 f_equal. lia.
Qed.
(** Positions still to visit. *)
Definition after (a : matrix) (o : nat) : list (nat * nat) := flat_map (column a) (seq (S o) (a_outer a - S o)).
Definition pending (a : matrix) (it : iter) : list (nat * nat) :=
  match i_inner it with None => [] | Some (id, e) => map (pair (i_outer it)) (seq id (e - id)) ++ after a (i_outer it) end.
Definition good (a : matrix) (it : iter) : Prop :=
  match i_inner it with None => True | Some (id, e) => id < e /\ i_outer it < a_outer a /\ start a (i_outer it) <= id /\ e = start a (i_outer it) + cells a (i_outer it) end.
Lemma after_step a o : S o < a_outer a -> after a o = column a (S o) ++ after a (S o).
Proof. intro H. unfold after. replace (a_outer a - S o) with (S (a_outer a - S (S o))) by lia. reflexivity. Qed.
Lemma after_end a o : a_outer a <= S o -> after a o = [].
Proof. intro H. unfold after. replace (a_outer a - S o) with 0 by lia. reflexivity. Qed.
Lemma incr_skip a fuel : well_formed a -> forall o id e, e <= S id -> a_outer a - o < fuel -> o < a_outer a ->
  exists it', incr fuel a (mkIt o (Some (id, e))) = Some it' /\ good a it' /\ pending a it' = after a o.
Proof.
  intro W. induction fuel as [|f IH]; intros o id e He Hf Ho; [lia|]. cbn [incr i_inner i_outer].
  assert (E : (S id <? e) = false) by (apply Nat.ltb_ge; lia). rewrite E. destruct (Nat.ltb_spec (S o) (a_outer a)) as [H|H].
  - rewrite inner_ok by auto. destruct (Nat.ltb_spec (start a (S o)) (start a (S o) + cells a (S o))) as [L|L].
    + eexists. split; [reflexivity|]. split; [unfold good; cbn [i_inner i_outer]; lia|]. unfold pending. cbn [i_inner i_outer]. rewrite (after_step a o) by auto. unfold column. do 3 f_equal. lia.
    + destruct (IH (S o) (start a (S o)) (start a (S o) + cells a (S o))) as (it' & E1 & E2 & E3); [lia|lia|auto|]. exists it'. split; auto. split; auto.
      rewrite E3, (after_step a o) by auto. unfold column. replace (cells a (S o)) with 0 by lia. reflexivity.
  - eexists. split; [reflexivity|]. split; [cbn; auto|]. rewrite after_end by lia. reflexivity.
Qed.
Lemma next_ok a it : well_formed a -> good a it -> exists it', next a it = Some it' /\ good a it' /\ pending a it' = tl (pending a it).
Proof.
  intros W G. unfold next. destruct it as [o [[id e]|]]; [|eexists; split; [reflexivity|]; split; [exact I|reflexivity]]. unfold good in G; cbn [i_inner i_outer] in G. destruct G as (G1 & G2 & G3 & G4).
  unfold pending at 2. cbn [i_inner i_outer]. replace (e - id) with (S (e - S id)) by lia. cbn [seq map app tl].
  destruct (Nat.ltb_spec (S id) e) as [L|L].
  - cbn [incr i_inner i_outer]. assert (E : (S id <? e) = true) by (apply Nat.ltb_lt; lia). rewrite E. eexists. split; [reflexivity|]. split; [unfold good; cbn [i_inner i_outer]; lia|]. reflexivity.
  - replace (e - S id) with 0 by lia. cbn [seq map app]. apply incr_skip; auto; lia.
Qed.
Lemma begin_ok a : well_formed a -> 0 < a_outer a -> exists it, begin_iter a = Some it /\ good a it /\ pending a it = stored a.
Proof.
  intros W H. assert (E : stored a = column a 0 ++ after a 0).
  { unfold stored, after. replace (a_outer a) with (S (a_outer a - 1)) at 1 by lia. reflexivity. }
  unfold begin_iter. rewrite inner_ok by auto. destruct (Nat.ltb_spec (start a 0) (start a 0 + cells a 0)) as [L|L].
  - eexists. split; [reflexivity|]. split; [unfold good; cbn [i_inner i_outer]; lia|]. rewrite E. unfold pending, column. cbn [i_inner i_outer]. do 3 f_equal. lia.
  - unfold next. destruct (incr_skip a (S (a_outer a)) W 0 (start a 0) (start a 0 + cells a 0)) as (it & E1 & E2 & E3); [lia|lia|auto|]. exists it. split; auto. split; auto.
    rewrite E3, E. unfold column. replace (cells a 0) with 0 by lia. reflexivity.
Qed.
Lemma good_some a o id e : good a (mkIt o (Some (id, e))) -> pending a (mkIt o (Some (id, e))) = (o, id) :: tl (pending a (mkIt o (Some (id, e)))).
Proof. cbn. intro H. replace (e - id) with (S (e - S id)) by lia. reflexivity. Qed.
Lemma cell_some a o id e : well_formed a -> good a (mkIt o (Some (id, e))) -> exists c, cell a (o, id) = Some c /\ deref a (mkIt o (Some (id, e))) = Some c.
Proof.
  intros W G. cbn in G. destruct (w_in a W o) as [W1 W2]; [lia|]. unfold cell, deref. cbn [fst snd i_inner i_outer].
  destruct (nth_error (a_inner a) id) eqn:E1; [|apply nth_error_None in E1; lia]. destruct (nth_error (a_value a) id) eqn:E2; [|apply nth_error_None in E2; lia]. eauto.
Qed.
Lemma visit_ok a : well_formed a -> forall fuel it, good a it -> length (pending a it) < fuel ->
  exists l, visit fuel a it = Some l /\ map (cell a) (pending a it) = map Some l.
Proof.
  intro W. induction fuel as [|f IH]; intros it G L; [lia|]. cbn [visit]. destruct it as [o [[id e]|]].
  - cbn [iter_eq end_iter i_inner]. destruct (cell_some a o id e W G) as (c & C1 & C2). rewrite C2.
    destruct (next_ok a _ W G) as (it' & N1 & N2 & N3). rewrite N1.
    assert (L' : length (pending a it') < f). { rewrite N3. rewrite (good_some a o id e G) in L. cbn [length] in L. lia. }
    destruct (IH it' N2 L') as (l & V1 & V2). rewrite V1. exists (c :: l). split; auto.
    rewrite (good_some a o id e G). cbn [map]. rewrite C1. f_equal. rewrite <- N3. exact V2.
  - cbn [iter_eq end_iter i_inner]. exists []. split; auto.
Qed.
(** C45: for every well formed matrix with at least one outer vector,
    compressed or not, with any empty columns, the loop ends and visits exactly
    the stored cells, each once, in storage order. *)
Theorem C45_visits_every_cell a fuel : well_formed a -> 0 < a_outer a -> length (stored a) < fuel ->
  exists l, enumerate fuel a = Some l /\ map Some l = map (cell a) (stored a) /\ length l = length (stored a).
Proof.
  intros W H L. unfold enumerate. destruct (begin_ok a W H) as (it & E1 & E2 & E3). rewrite E1. rewrite <- E3 in L.
  destruct (visit_ok a W fuel it E2 L) as (l & V1 & V2). exists l. split; auto. rewrite <- E3. split; auto.
  apply (f_equal (@length _)) in V2. rewrite !map_length in V2. auto.
Qed.
(** The stored positions are pairwise different. *)
Lemma stored_NoDup a : NoDup (stored a).
Proof.
  unfold stored. assert (G : forall n s, NoDup (flat_map (column a) (seq s n)) /\ forall p, In p (flat_map (column a) (seq s n)) -> s <= fst p).
  { induction n as [|n IH]; intro s; cbn [seq flat_map]; [split; [constructor|intros p []]|]. destruct (IH (S s)) as [I1 I2]. split.
    - assert (C : NoDup (column a s)). { unfold column. apply FinFun.Injective_map_NoDup; [intros x y E; congruence|apply seq_NoDup]. }
      revert I1 I2 C. generalize (flat_map (column a) (seq (S s) n)) as r. intros r I1 I2 C.
      assert (D : forall p, In p (column a s) -> ~ In p r). { intros p Hp Hr. apply I2 in Hr. unfold column in Hp. apply in_map_iff in Hp. destruct Hp as (x & <- & _). cbn in Hr. lia. }
      clear I2. induction (column a s) as [|x l IHl]; cbn; auto. inversion C; subst. constructor.
      + rewrite in_app_iff. intros [X|X]; [auto|apply (D x); [left; auto|auto]].
      + apply IHl; auto. intros p Hp. apply D. right. auto.
    - intros p Hp. apply in_app_iff in Hp. destruct Hp as [Hp|Hp]; [unfold column in Hp; apply in_map_iff in Hp; destruct Hp as (x & <- & _); cbn; lia|apply I2 in Hp; lia]. }
  apply (G (a_outer a) 0).
Qed.
(** Equality of iterators: after m and n increments they compare equal exactly
    when they are at the same cell or both at the end (inner indices differ
    within a column, as Eigen keeps them). *)
Definition indices_distinct (a : matrix) : Prop := forall j p q x, j < a_outer a -> start a j <= p < start a j + cells a j -> start a j <= q < start a j + cells a j ->
  nth_error (a_inner a) p = Some x -> nth_error (a_inner a) q = Some x -> p = q.
Lemma advance_ok a n : well_formed a -> 0 < a_outer a -> exists it, advance n a = Some it /\ good a it /\ pending a it = skipn n (stored a).
Proof.
  intros W H. induction n as [|n (it & E1 & E2 & E3)]; cbn [advance]; [apply begin_ok; auto|]. rewrite E1.
  destruct (next_ok a it W E2) as (it' & N1 & N2 & N3). exists it'. split; auto. split; auto. rewrite N3, E3.
  assert (S1 : forall A (l : list A) k, tl (skipn k l) = skipn (S k) l). { clear. intros A l. induction l as [|x l IH]; intro k; destruct k; try reflexivity. apply IH. }
  apply S1.
Qed.
Lemma skipn_hd_nodup {A} (l : list A) : NoDup l -> forall m n x r r', skipn m l = x :: r -> skipn n l = x :: r' -> m = n.
Proof.
  intros N m n x r r' H1 H2.
  assert (G : forall k (t : list A) y s, skipn k t = y :: s -> nth_error t k = Some y). { clear. intros k t. revert k. induction t as [|z t IH]; intros [|k] y s E; try discriminate; cbn in *; [congruence|eapply IH; eauto]. }
  apply G in H1. apply G in H2. apply (NoDup_nth_error l); auto; [apply nth_error_Some; congruence|congruence].
Qed.
Theorem C45_iterator_equality a m n : well_formed a -> indices_distinct a -> 0 < a_outer a ->
  exists x y b, advance m a = Some x /\ advance n a = Some y /\ iter_eq a x y = Some b /\
    (b = true <-> m = n \/ (length (stored a) <= m /\ length (stored a) <= n)).
Proof.
  intros W D H. destruct (advance_ok a m W H) as (x & X1 & X2 & X3). destruct (advance_ok a n W H) as (y & Y1 & Y2 & Y3).
  assert (Len : forall k it, pending a it = skipn k (stored a) -> good a it -> (i_inner it = None <-> length (stored a) <= k)).
  { intros k it E G. split.
    - intro N. unfold pending in E. rewrite N in E. symmetry in E. apply (f_equal (@length _)) in E. rewrite skipn_length in E. cbn in E. lia.
    - intro L. rewrite skipn_all2 in E by auto. destruct it as [o [[id e]|]]; auto. rewrite (good_some a o id e G) in E. discriminate. }
  pose proof (Len m x X3 X2) as LX. pose proof (Len n y Y3 Y2) as LY.
  destruct x as [o [[id e]|]], y as [o' [[id' e']|]]; cbn [i_inner] in LX, LY.
  - assert (Hm : ~ length (stored a) <= m) by (intro Q; apply LX in Q; discriminate). assert (Hn : ~ length (stored a) <= n) by (intro Q; apply LY in Q; discriminate).
    pose proof (good_some a _ _ _ X2) as HX. pose proof (good_some a _ _ _ Y2) as HY. rewrite X3 in HX at 1. rewrite Y3 in HY at 1.
    destruct (cell_some a o id e W X2) as (c & C1 & _). destruct (cell_some a o' id' e' W Y2) as (c' & C1' & _).
    unfold cell in C1, C1'. cbn [fst snd] in C1, C1'. destruct (nth_error (a_inner a) id) as [p|] eqn:P; [|discriminate]. destruct (nth_error (a_inner a) id') as [p'|] eqn:P'; [|discriminate].
    exists (mkIt o (Some (id, e))), (mkIt o' (Some (id', e'))). cbn [iter_eq i_inner i_outer]. rewrite P, P'.
    destruct (Nat.eqb_spec o o') as [->|N].
    + eexists. split; auto. split; auto. split; [reflexivity|]. rewrite Nat.eqb_eq. split.
      * intros ->. left. cbn in X2, Y2. assert (id = id') by (apply (D o' id id' p'); auto; lia). subst id'. eapply skipn_hd_nodup; eauto. apply stored_NoDup.
      * intros [->|]; [|lia]. rewrite HX in HY. injection HY as E _. congruence.
    + eexists. split; auto. split; auto. split; [reflexivity|]. split; [discriminate|]. intros [->|]; [|lia]. rewrite HX in HY. injection HY as E _. congruence.
  - exists (mkIt o (Some (id, e))), (mkIt o' None), false. cbn. repeat (split; auto); try discriminate. intros [->|[Q _]]; [|apply LX in Q; discriminate]. assert (length (stored a) <= n) by (apply LY; auto). apply LX in H0. discriminate.
  - exists (mkIt o None), (mkIt o' (Some (id', e'))), false. cbn. repeat (split; auto); try discriminate. intros [->|[_ Q]]; [|apply LY in Q; discriminate]. assert (length (stored a) <= n) by (apply LX; auto). apply LY in H0. discriminate.
  - exists (mkIt o None), (mkIt o' None), true. cbn. split; auto. split; auto. split; auto. split; auto. intros _. right. split; [apply LX|apply LY]; auto.
Qed.
End P.
Print Assumptions C45_visits_every_cell.
Print Assumptions C45_iterator_equality.
(** Leading, inner and trailing empty columns; uncompressed storage with gaps. *)
Definition demo : @matrix nat := mkM 5 [0; 0; 2; 2; 3; 3] None [1; 4; 2] [10; 20; 30].
Definition demo2 : @matrix nat := mkM 3 [0; 2; 4; 6] (Some [1; 0; 2]) [0; 9; 9; 9; 1; 3] [5; 0; 0; 0; 6; 7].
Example C45_nonvacuous : well_formed demo /\ well_formed demo2 /\ indices_distinct demo /\ enumerate 4 demo = Some [(1, 1, 10); (1, 4, 20); (3, 2, 30)] /\ enumerate 4 demo2 = Some [(0, 0, 5); (2, 1, 6); (2, 3, 7)].
Proof.
  split; [|split; [|split; [|split; reflexivity]]].
  - split; [reflexivity|discriminate| |]; cbn; intros; do 5 (destruct j as [|j]; [cbn; lia|]); lia.
  - split; [reflexivity|intros c E; injection E as <-; reflexivity|discriminate|]. cbn; intros; do 5 (destruct j as [|j]; [cbn; lia|]); lia.
  - intros j p q x Hj. cbn in Hj. assert (C : j = 0 \/ j = 1 \/ j = 2 \/ j = 3 \/ j = 4) by lia. destruct C as [->|[->|[->|[->| ->]]]]; cbn; intros H1 H2; try lia.
    destruct p as [|[|p]], q as [|[|q]]; try lia; cbn; congruence.
Qed.
(** A matrix with no outer vectors: begin() reads the start array past its end. *)
Theorem C45_empty_matrix_refuted V : exists a : @matrix V, well_formed a /\ forall fuel, enumerate fuel a = None.
Proof.
  exists (mkM 0 [0] None [] []). split; [split; [reflexivity|discriminate| |]; cbn; intros; lia|]. intro fuel. reflexivity.
Qed.
Print Assumptions C45_empty_matrix_refuted.
