(** CovarProps.v -- C46, C47. *)
From Coq Require Import List Bool ZArith Lia Znumtheory.
From Verif Require Import Base CovarModel.
Import ListNotations.

(** ---- specification ---- *)
(** The dimensions for which the class can index its storage with unsigned
    32-bit numbers. *)
Definition dim_ok (N : nat) : Prop := (Z.of_nat N * (Z.of_nat N + 1) < 2 ^ 32)%Z.
(** A covariance object: exactly data_size elements. *)
Definition is_cov {T} (N : nat) (c : cov T) : Prop := length c = data_size N.

(** ---- proofs ---- *)
Fixpoint tri (j : nat) : nat := match j with O => O | S k => tri k + S k end.
Lemma tri2 j : 2 * tri j = j * (j + 1).
Proof. induction j; cbn [tri]; nia. Qed.
Lemma tri_mono j k : j < k -> tri j + j < tri k.
Proof. intro H. pose proof (tri2 j). pose proof (tri2 k). nia. Qed.
Lemma triZ j : (Z.of_nat j * (Z.of_nat j + 1) / 2 = Z.of_nat (tri j))%Z.
Proof. pose proof (tri2 j). replace (Z.of_nat j * (Z.of_nat j + 1))%Z with (Z.of_nat (tri j) * 2)%Z by nia. apply Z.div_mul. lia. Qed.
Lemma u32_id z : (0 <= z < 2 ^ 32)%Z -> u32 z = z.
Proof. intro H. apply Z.mod_small. exact H. Qed.
Lemma size_tri N : dim_ok N -> data_size N = tri N.
Proof.
  unfold dim_ok, data_size. intro H. rewrite (u32_id (Z.of_nat N + 1)) by nia. rewrite u32_id by nia. rewrite triZ. lia.
Qed.
Lemma idx_tri N i j : dim_ok N -> i < N -> j < N -> vector_index i j = if i <? j then tri j + i else tri i + j.
Proof.
  unfold dim_ok, vector_index. intros H Hi Hj. pose proof (tri2 i). pose proof (tri2 j). pose proof (tri2 N).
  rewrite (u32_id (Z.of_nat j + 1)), (u32_id (Z.of_nat i + 1)) by nia. rewrite (u32_id (Z.of_nat j * (Z.of_nat j + 1))), (u32_id (Z.of_nat i * (Z.of_nat i + 1))) by nia. rewrite !triZ.
  rewrite !u32_id by nia. destruct (Z.ltb_spec (Z.of_nat i) (Z.of_nat j)), (Nat.ltb_spec i j); lia.
Qed.
Lemma tri_inj a b a' b' : a <= b -> a' <= b' -> tri b + a = tri b' + a' -> a = a' /\ b = b'.
Proof.
  intros H H' E. destruct (Nat.lt_trichotomy b b') as [L|[->|L]]; [pose proof (tri_mono _ _ L); lia|lia|pose proof (tri_mono _ _ L); lia].
Qed.

(** C46: operator() is in bounds, symmetric, different unordered pairs have
    different elements, and every element is some pair's. *)
Theorem C46_index N : dim_ok N ->
  (forall i j, i < N -> j < N -> vector_index i j < data_size N) /\
  (forall i j, i < N -> j < N -> vector_index i j = vector_index j i) /\
  (forall i j i' j', i < N -> j < N -> i' < N -> j' < N -> vector_index i j = vector_index i' j' -> (i = i' /\ j = j') \/ (i = j' /\ j = i')) /\
  (forall k, k < data_size N -> exists i j, i < N /\ j < N /\ vector_index i j = k).
Proof.
  intro D. split; [|split; [|split]].
  - intros i j Hi Hj. rewrite (idx_tri N), size_tri by auto. destruct (Nat.ltb_spec i j); [pose proof (tri_mono _ _ Hj)|pose proof (tri_mono _ _ Hi)]; lia.
  - intros i j Hi Hj. rewrite !(idx_tri N) by auto. destruct (Nat.ltb_spec i j), (Nat.ltb_spec j i); try lia. replace j with i by lia. reflexivity.
  - intros i j i' j' Hi Hj Hi' Hj'. rewrite !(idx_tri N) by auto. destruct (Nat.ltb_spec i j), (Nat.ltb_spec i' j'); intro E; apply tri_inj in E; lia.
  - intros k Hk. rewrite size_tri in Hk by auto. assert (G : forall n, k < tri n -> exists a b, a <= b < n /\ tri b + a = k).
    { induction n as [|n IH]; cbn [tri]; [lia|]. intro H. destruct (Nat.lt_ge_cases k (tri n)) as [L|L].
      - destruct (IH L) as (a & b & H1 & H2). exists a, b. lia.
      - exists (k - tri n), n. lia. }
    destruct (G N Hk) as (a & b & H1 & H2). exists b, a. split; [lia|]. split; [lia|]. rewrite (idx_tri N) by (auto; lia). destruct (Nat.ltb_spec b a); lia.
Qed.
Print Assumptions C46_index.

Lemma loop_inv {St} (P : nat -> St -> Prop) body k : forall i s, P i s ->
  (forall x s, i <= x < i + k -> P x s -> exists s', body x s = Some s' /\ P (S x) s') -> exists s', loop body i k s = Some s' /\ P (i + k) s'.
Proof.
  induction k as [|k IH]; intros i s H0 Hs; cbn [loop]; [exists s; rewrite Nat.add_0_r; auto|].
  destruct (Hs i s) as (s' & E & P'); [lia|auto|]. rewrite E. destruct (IH (S i) s' P') as (s2 & E2 & P2); [intros; apply Hs; auto; lia|].
  exists s2. split; auto. replace (i + S k) with (S i + k) by lia. exact P2.
Qed.

Section P.
Context {T : Type}.
Definition upper (off : nat -> nat -> T) (diag : nat -> T) a b := if a =? b then diag b else off a b.
Lemma put_ok (v : T) d n : n < length d -> put v (d, n) = Some (lupd d n (Some v), S n).
Proof. intro H. unfold put. destruct (Nat.ltb_spec n (length d)); [reflexivity|lia]. Qed.
Lemma fill_ok N (off : nat -> nat -> T) diag : dim_ok N ->
  exists c, fill N off diag = Some c /\ is_cov N c /\ forall a b, a <= b < N -> nth_error c (tri b + a) = Some (Some (upper off diag a b)).
Proof.
  intro D. unfold fill.
  pose (P := fun j (s : cov T * nat) => length (fst s) = tri N /\ snd s = tri j /\ forall a b, a <= b < j -> nth_error (fst s) (tri b + a) = Some (Some (upper off diag a b))).
  match goal with |- context [loop ?body 0 N ?s0] => destruct (loop_inv P body N 0 s0) as ((c & n) & E & L & _ & C) end.
  - split; [|split]; cbn [fst snd]; [unfold fresh; rewrite repeat_length; apply size_tri; auto|reflexivity|intros; lia].
  - intros j s Hj (L & En & C).
    pose (Q := fun i (s : cov T * nat) => length (fst s) = tri N /\ snd s = tri j + i /\ (forall a b, a <= b < j -> nth_error (fst s) (tri b + a) = Some (Some (upper off diag a b))) /\
      forall a, a < i -> nth_error (fst s) (tri j + a) = Some (Some (off a j))).
    destruct (loop_inv Q (fun i s => put (off i j) s) j 0 s) as ((d & n) & E & L' & En' & C' & R').
    + split; [auto|]. split; [lia|]. split; [auto|]. intros; lia.
    + intros i (d & n) Hi (L' & En' & C' & R'). cbn [fst snd] in L', En', C', R'. subst n. pose proof (tri_mono j N ltac:(lia)).
      rewrite put_ok by lia. eexists. split; [reflexivity|]. unfold Q. cbn [fst snd]. rewrite lupd_length. split; [auto|]. split; [lia|]. split.
      * intros a b Hab. pose proof (tri_mono b j ltac:(lia)). rewrite nth_lupd_ne by lia. auto.
      * intros a Ha. destruct (Nat.eq_dec a i) as [->|]; [rewrite nth_lupd_eq by lia; reflexivity|rewrite nth_lupd_ne by lia; apply R'; lia].
    + rewrite E. cbn [fst snd] in L', En', C', R'. cbn [Nat.add] in En', R'. subst n. pose proof (tri_mono j N ltac:(lia)).
      rewrite put_ok by lia. eexists. split; [reflexivity|]. unfold P. cbn [fst snd]. rewrite lupd_length. split; [auto|]. split; [cbn [tri]; lia|].
      intros a b Hab. destruct (Nat.eq_dec b j) as [->|].
      * unfold upper. destruct (Nat.eqb_spec a j) as [->|]; [rewrite nth_lupd_eq by lia; reflexivity|rewrite nth_lupd_ne by lia; apply R'; lia].
      * pose proof (tri_mono b j ltac:(lia)). rewrite nth_lupd_ne by lia. apply C'. lia.
  - cbn [fst snd] in *. rewrite E. exists c. split; auto. split; [unfold is_cov; rewrite size_tri by auto; auto|]. intros. apply C. cbn. lia.
Qed.
Lemma get_upper N (c : cov T) i j : dim_ok N -> i < N -> j < N -> get c i j = if i <? j then nth_error c (tri j + i) else nth_error c (tri i + j).
Proof. intros. unfold get. rewrite (idx_tri N) by auto. destruct (i <? j); reflexivity. Qed.

(** Building from a matrix: the diagonal is kept and the entries (i,j) and
    (j,i) both become the average of the two. *)
Theorem C46_from_matrix avg N (mat : nat -> nat -> T) : dim_ok N ->
  exists c, from_matrix avg N mat = Some c /\ is_cov N c /\
    forall i j, i < N -> j < N -> get c i j = Some (Some (if i =? j then mat i i else if i <? j then avg (mat i j) (mat j i) else avg (mat j i) (mat i j))).
Proof.
  intro D. unfold from_matrix. destruct (fill_ok N (fun i j => avg (mat i j) (mat j i)) (fun j => mat j j) D) as (c & E & L & C).
  exists c. split; auto. split; auto. intros i j Hi Hj. rewrite (get_upper N) by auto. destruct (Nat.ltb_spec i j) as [H|H].
  - rewrite C by lia. unfold upper. destruct (Nat.eqb_spec i j); [lia|]. reflexivity.
  - rewrite C by lia. unfold upper. destruct (Nat.eqb_spec i j) as [->|]; [rewrite Nat.eqb_refl; reflexivity|]. destruct (Nat.eqb_spec j i); [lia|]. reflexivity.
Qed.
(** Building from a scalar: the scalar times the identity. *)
Theorem C46_from_scalar zero N (v : T) : dim_ok N ->
  exists c, from_scalar zero N v = Some c /\ is_cov N c /\ forall i j, i < N -> j < N -> get c i j = Some (Some (if i =? j then v else zero)).
Proof.
  intro D. unfold from_scalar. destruct (fill_ok N (fun _ _ => zero) (fun _ => v) D) as (c & E & L & C).
  exists c. split; auto. split; auto. intros i j Hi Hj. rewrite (get_upper N) by auto. destruct (Nat.ltb_spec i j) as [H|H]; rewrite C by lia; unfold upper.
  - destruct (Nat.eqb_spec i j); [lia|reflexivity].
  - rewrite (Nat.eqb_sym i j). reflexivity.
Qed.
(** The extracted matrix has exactly the entries that operator() gives. *)
Theorem C46_to_matrix N (c : cov T) : dim_ok N -> is_cov N c ->
  exists m, to_matrix N c = Some m /\ forall i j, i < N -> j < N -> get c i j = Some (m i j).
Proof.
  intros D Lc. unfold is_cov in Lc. rewrite size_tri in Lc by auto. unfold to_matrix.
  pose (P := fun j (s : pmat * nat) => snd s = tri j /\ forall a b, a <= b < j -> nth_error c (tri b + a) = Some (fst s a b) /\ fst s b a = fst s a b).
  match goal with |- context [loop ?body 0 N ?s0] => destruct (loop_inv P body N 0 s0) as ((m & n) & E & _ & C) end.
  - split; [reflexivity|intros; lia].
  - intros j s Hj (En & C). pose proof (tri_mono j N ltac:(lia)) as M.
    pose (Q := fun i (s : pmat * nat) => snd s = tri j + i /\ (forall a b, a <= b < j -> nth_error c (tri b + a) = Some (fst s a b) /\ fst s b a = fst s a b) /\
      forall a, a < i -> nth_error c (tri j + a) = Some (fst s a j) /\ fst s j a = fst s a j).
    match goal with |- context [loop ?body 0 j s] => destruct (loop_inv Q body j 0 s) as ((m & n) & E & En' & C' & R') end.
    + split; [lia|]. split; [auto|]. intros; lia.
    + intros i (m & n) Hi (En' & C' & R'). cbn [fst snd] in En', C', R'. subst n. destruct (nth_error c (tri j + i)) as [v|] eqn:Ev; [|apply nth_error_None in Ev; lia].
      eexists. split; [reflexivity|]. unfold Q. cbn [fst snd]. split; [lia|]. split.
      * intros a b Hab. unfold mset. rewrite !(proj2 (Nat.eqb_neq b j)), !(proj2 (Nat.eqb_neq a j)) by lia. rewrite !andb_false_r. cbn [andb]. apply C'. lia.
      * intros a Ha. unfold mset. rewrite !(proj2 (Nat.eqb_neq j i)) by lia. rewrite (Nat.eqb_refl j). cbn [andb]. rewrite !andb_true_r. destruct (Nat.eqb_spec a i) as [->|]; [split; [exact Ev|reflexivity]|].
        rewrite (proj2 (Nat.eqb_neq a j)) by lia. cbn [andb]. apply R'. lia.
    + rewrite E. cbn [fst snd] in En', C', R'. cbn [Nat.add] in En', R'. subst n. destruct (nth_error c (tri j + j)) as [v|] eqn:Ev; [|apply nth_error_None in Ev; lia].
      eexists. split; [reflexivity|]. unfold P. cbn [fst snd]. split; [cbn [tri]; lia|]. intros a b Hab. unfold mset. destruct (Nat.eqb_spec b j) as [->|].
      * rewrite !andb_true_r. cbn [andb]. destruct (Nat.eqb_spec a j) as [->|]; [split; [exact Ev|reflexivity]|]. apply R'. lia.
      * cbn [andb]. rewrite !andb_false_r. apply C'. lia.
  - rewrite E. exists m. split; auto. cbn [fst snd] in C. intros i j Hi Hj. rewrite (get_upper N) by auto. destruct (Nat.ltb_spec i j).
    + apply C. cbn. lia.
    + destruct (C j i) as [C1 C2]; [cbn; lia|]. rewrite C1, C2. reflexivity.
Qed.
(** Writing through operator() changes that element (both ways round) and no
    other. *)
Theorem C46_set N (c : cov T) i j v : dim_ok N -> is_cov N c -> i < N -> j < N ->
  exists c', set c i j v = Some c' /\ is_cov N c' /\ get c' i j = Some (Some v) /\ get c' j i = Some (Some v) /\
    forall a b, a < N -> b < N -> ~ (a = i /\ b = j) -> ~ (a = j /\ b = i) -> get c' a b = get c a b.
Proof.
  intros D L Hi Hj. destruct (C46_index N D) as (I1 & I2 & I3 & _). unfold set. unfold is_cov in *. rewrite L.
  assert (E : (vector_index i j <? data_size N) = true) by (apply Nat.ltb_lt; auto). rewrite E. eexists. split; [reflexivity|]. rewrite lupd_length. split; [auto|].
  unfold get. rewrite (I2 j i) by auto. rewrite nth_lupd_eq by (rewrite L; auto). split; auto. split; auto.
  intros a b Ha Hb N1 N2. apply nth_lupd_ne. intro Q. destruct (I3 i j a b) as [[-> ->]|[-> ->]]; auto.
Qed.
(** Symmetric matrix -> covariance -> matrix is the identity. *)
Theorem C46_roundtrip avg N (mat : nat -> nat -> T) : dim_ok N -> (forall x, avg x x = x) -> (forall i j, i < N -> j < N -> mat i j = mat j i) ->
  exists c m, from_matrix avg N mat = Some c /\ to_matrix N c = Some m /\ forall i j, i < N -> j < N -> m i j = Some (mat i j).
Proof.
  intros D A S. destruct (C46_from_matrix avg N mat D) as (c & E & L & C). destruct (C46_to_matrix N c D L) as (m & Em & M). exists c, m. split; auto. split; auto.
  intros i j Hi Hj. pose proof (M i j Hi Hj) as H. rewrite C in H by auto. injection H as <-. f_equal. rewrite (S j i) by auto. rewrite A.
  destruct (Nat.eqb_spec i j) as [->|]; auto. destruct (i <? j); auto.
Qed.
End P.
Print Assumptions C46_from_matrix.
Print Assumptions C46_from_scalar.
Print Assumptions C46_to_matrix.
Print Assumptions C46_set.
Print Assumptions C46_roundtrip.
Example C46_nonvacuous :
  exists c m, from_matrix (fun x y => (x + y) / 2) 3 (fun i j => 10 * i + 2 * j) = Some c /\ c = map Some [0; 6; 12; 12; 18; 24] /\ to_matrix 3 c = Some m /\ m 2 1 = Some 18 /\ m 1 2 = Some 18 /\ get c 2 1 = Some (Some 18).
Proof. eexists. eexists. split; [vm_compute; reflexivity|]. split; [reflexivity|]. split; [reflexivity|]. repeat split. Qed.
(** Past the limit the arithmetic wraps: for N = 65536, element (0, 65535) is
    outside the storage. *)
Theorem C46_wide_refuted : exists N i j, i < N /\ j < N /\ data_size N <= vector_index i j.
Proof.
  exists (Z.to_nat 65536), 0, (Z.to_nat 65535). split; [lia|]. split; [lia|]. unfold data_size, vector_index. rewrite !Z2Nat.id by lia.
  apply Z2Nat.inj_le; vm_compute; discriminate.
Qed.
Print Assumptions C46_wide_refuted.

Lemma convert_ok {U T} (cast : U -> T) N (c : cov U) : dim_ok N -> is_cov N c ->
  exists c', convert cast N c = Some c' /\ is_cov N c' /\ forall k v, nth_error c k = Some v -> nth_error c' k = Some (if k <? N then option_map cast v else None).
Proof.
  intros D L. unfold is_cov in L. rewrite size_tri in L by auto. unfold convert. assert (M : N <= tri N) by (pose proof (tri2 N); destruct N; [lia|nia]).
  pose (P := fun j (s : cov T * nat) => length (fst s) = tri N /\ snd s = j /\ forall k v, nth_error c k = Some v -> nth_error (fst s) k = Some (if k <? j then option_map cast v else None)).
  match goal with |- context [loop ?body 0 N ?s0] => destruct (loop_inv P body N 0 s0) as ((c' & n) & E & L' & _ & C) end.
  - split; [|split]; cbn [fst snd]; [unfold fresh; rewrite repeat_length; apply size_tri; auto|reflexivity|]. intros k v H. cbn. unfold fresh. rewrite size_tri by auto.
    apply nth_error_lt in H. rewrite nth_error_repeat by lia. reflexivity.
  - intros j (d & n) Hj (L' & En & C). cbn [fst snd] in L', En, C. subst n. destruct (nth_error c j) as [v|] eqn:Ev; [|apply nth_error_None in Ev; lia].
    assert (X : (j <? length d) = true) by (apply Nat.ltb_lt; lia). rewrite X. eexists. split; [reflexivity|]. unfold P. cbn [fst snd]. rewrite lupd_length. split; auto. split; auto.
    intros k w Hk. destruct (Nat.eq_dec k j) as [->|].
    + rewrite nth_lupd_eq by lia. rewrite (proj2 (Nat.ltb_lt j (S j))) by lia. congruence.
    + rewrite nth_lupd_ne by lia. rewrite (C k w Hk). f_equal. destruct (Nat.ltb_spec k j), (Nat.ltb_spec k (S j)); auto; lia.
  - rewrite E. exists c'. split; auto. split; [unfold is_cov; rewrite size_tri by auto; auto|]. exact C.
Qed.
(** C47: the converting constructor carries over exactly the elements stored at
    positions below N; the others stay uninitialised. *)
Theorem C47_conversion {U T} (cast : U -> T) N (c : cov U) : dim_ok N -> is_cov N c ->
  exists c', convert cast N c = Some c' /\ is_cov N c' /\
    forall i j, i < N -> j < N -> exists v, get c i j = Some v /\ get c' i j = Some (if vector_index i j <? N then option_map cast v else None).
Proof.
  intros D L. destruct (convert_ok cast N c D L) as (c' & E & L' & C). exists c'. split; auto. split; auto. intros i j Hi Hj. unfold get.
  destruct (C46_index N D) as (I1 & _). pose proof (I1 i j Hi Hj) as B. destruct (nth_error c (vector_index i j)) as [v|] eqn:Ev; [|apply nth_error_None in Ev; unfold is_cov in L; lia].
  exists v. split; auto.
Qed.
(** So it is right for N <= 1, *)
Theorem C47_one {U T} (cast : U -> T) (c : cov U) : is_cov 1 c -> exists v, c = [v] /\ convert cast 1 c = Some [option_map cast v].
Proof. intro L. destruct c as [|v [|w r]]; cbn in L; try discriminate L. exists v. split; auto. Qed.
(** and for every N >= 2 the last variance is lost, whatever the source. *)
Theorem C47_conversion_refuted {U T} (cast : U -> T) N (c : cov U) : dim_ok N -> 2 <= N -> is_cov N c ->
  exists c', convert cast N c = Some c' /\ get c' (N - 1) (N - 1) = Some None.
Proof.
  intros D H L. destruct (C47_conversion cast N c D L) as (c' & E & L' & C). exists c'. split; auto. destruct (C (N - 1) (N - 1)) as (v & _ & G); [lia|lia|]. rewrite G.
  destruct (Nat.ltb_spec (vector_index (N - 1) (N - 1)) N) as [X|X]; auto. rewrite (idx_tri N) in X by (auto; lia). rewrite Nat.ltb_irrefl in X. pose proof (tri2 (N - 1)). nia.
Qed.
Print Assumptions C47_conversion.
Print Assumptions C47_one.
Print Assumptions C47_conversion_refuted.
(** A 2x2 float covariance read as doubles (feature_f::covar()): the variance
    of y is not initialised. *)
Example C47_nonvacuous : convert (fun x : nat => 10 * x) 2 (map Some [4; 1; 9]) = Some [Some 40; Some 10; None].
Proof. reflexivity. Qed.
