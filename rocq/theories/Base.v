(** Base.v -- shared vocabulary: byte strings, lexicographic order, and the
    sorted association list that models [std::map].

    Simplification: a C++ [std::string] is a list of bytes ([ascii], 8 bits);
    the "C" locale is assumed for <cctype> classification. *)
From Coq Require Export Ascii String ZArith Lia Bool Arith.
From Coq Require Export List.
Export ListNotations.
Open Scope list_scope.
Open Scope nat_scope.

Definition str := list ascii.

(** Literal helper: [L "abc"] is the byte string abc. *)
Definition L (s : string) : str := list_ascii_of_string s.
Arguments L s : simpl never.

Definition ascii_eqb := Ascii.eqb.

Fixpoint str_eqb (a b : str) : bool :=
  match a, b with
  | [], [] => true
  | x :: a', y :: b' => Ascii.eqb x y && str_eqb a' b'
  | _, _ => false
  end.

Lemma str_eqb_eq a b : str_eqb a b = true <-> a = b.
Proof.
  revert b; induction a as [|x a IH]; intros [|y b]; simpl; split; intro H;
    try reflexivity; try discriminate.
  - apply andb_true_iff in H as [H1 H2]. apply Ascii.eqb_eq in H1. apply IH in H2.
    congruence.
  - injection H as -> ->. rewrite Ascii.eqb_refl. apply IH. reflexivity.
Qed.

Lemma str_eqb_refl a : str_eqb a a = true.
Proof. apply str_eqb_eq; reflexivity. Qed.

Lemma str_eqb_neq a b : str_eqb a b = false <-> a <> b.
Proof.
  split; intro H.
  - intros ->. rewrite str_eqb_refl in H. discriminate.
  - destruct (str_eqb a b) eqn:E; [|reflexivity].
    apply str_eqb_eq in E. contradiction.
Qed.

Lemma str_eqb_spec a b : reflect (a = b) (str_eqb a b).
Proof.
  destruct (str_eqb a b) eqn:E; constructor.
  - apply str_eqb_eq; exact E.
  - apply str_eqb_neq; exact E.
Qed.

Definition str_dec (a b : str) : {a = b} + {a <> b}.
Proof. apply list_eq_dec. apply ascii_dec. Defined.

(** [std::char_traits<char>::compare] on bytes (memcmp order). *)
Definition ascii_cmp (x y : ascii) : comparison := N.compare (N_of_ascii x) (N_of_ascii y).

Fixpoint str_cmp (a b : str) : comparison :=
  match a, b with
  | [], [] => Eq
  | [], _ => Lt
  | _, [] => Gt
  | x :: a', y :: b' =>
      match ascii_cmp x y with
      | Eq => str_cmp a' b'
      | c => c
      end
  end.

Lemma N_of_ascii_inj x y : N_of_ascii x = N_of_ascii y -> x = y.
Proof. intro H. rewrite <- (ascii_N_embedding x), <- (ascii_N_embedding y), H. reflexivity. Qed.

Lemma str_cmp_eq a b : str_cmp a b = Eq <-> a = b.
Proof.
  revert b; induction a as [|x a IH]; intros [|y b]; simpl; split; intro H;
    try reflexivity; try discriminate.
  - unfold ascii_cmp in H. destruct (N.compare_spec (N_of_ascii x) (N_of_ascii y)) as [E|E|E];
      try discriminate.
    apply N_of_ascii_inj in E. apply IH in H. congruence.
  - injection H as -> ->. unfold ascii_cmp. rewrite N.compare_refl. apply IH. reflexivity.
Qed.

Lemma str_cmp_antisym a b : str_cmp b a = CompOpp (str_cmp a b).
Proof.
  revert b; induction a as [|x a IH]; intros [|y b]; simpl; try reflexivity.
  unfold ascii_cmp. rewrite (N.compare_antisym (N_of_ascii x) (N_of_ascii y)).
  destruct (N_of_ascii x ?= N_of_ascii y)%N; simpl; auto.
Qed.

Lemma str_cmp_trans a b c : str_cmp a b = Lt -> str_cmp b c = Lt -> str_cmp a c = Lt.
Proof.
  revert b c; induction a as [|x a IH]; intros [|y b] [|z c]; simpl; try discriminate; auto.
  unfold ascii_cmp.
  destruct (N.compare_spec (N_of_ascii x) (N_of_ascii y)) as [E1|E1|E1]; try discriminate;
  destruct (N.compare_spec (N_of_ascii y) (N_of_ascii z)) as [E2|E2|E2]; try discriminate;
  destruct (N.compare_spec (N_of_ascii x) (N_of_ascii z)) as [E3|E3|E3];
    intros H1 H2; try reflexivity; try lia; eauto.
Qed.

(** ------------------------------------------------------------------
    [std::map]: association list sorted by a comparison. *)
Section SMap.
  Context {K : Type} (cmp : K -> K -> comparison).

  Fixpoint m_find {V} (k : K) (m : list (K * V)) : option V :=
    match m with
    | [] => None
    | (k', v) :: m' =>
        match cmp k k' with
        | Eq => Some v
        | _ => m_find k m'
        end
    end.

  (** operator[] + assignment: overwrite or insert in order. *)
  Fixpoint m_set {V} (k : K) (v : V) (m : list (K * V)) : list (K * V) :=
    match m with
    | [] => [(k, v)]
    | (k', v') :: m' =>
        match cmp k k' with
        | Lt => (k, v) :: (k', v') :: m'
        | Eq => (k, v) :: m'
        | Gt => (k', v') :: m_set k v m'
        end
    end.

  Fixpoint m_erase {V} (k : K) (m : list (K * V)) : list (K * V) :=
    match m with
    | [] => []
    | (k', v') :: m' =>
        match cmp k k' with
        | Eq => m'
        | _ => (k', v') :: m_erase k m'
        end
    end.

  Definition m_keys {V} (m : list (K * V)) : list K := map fst m.
  Definition m_has {V} (k : K) (m : list (K * V)) : bool :=
    match m_find k m with Some _ => true | None => false end.

  (** strictly increasing keys *)
  Fixpoint m_above {V} (k : K) (m : list (K * V)) : Prop :=
    match m with
    | [] => True
    | (k', _) :: m' => cmp k k' = Lt /\ m_above k m'
    end.
  Fixpoint m_sorted {V} (m : list (K * V)) : Prop :=
    match m with
    | [] => True
    | (k, _) :: m' => m_above k m' /\ m_sorted m'
    end.

  Hypothesis cmp_eq : forall a b, cmp a b = Eq <-> a = b.
  Hypothesis cmp_antisym : forall a b, cmp b a = CompOpp (cmp a b).
  Hypothesis cmp_trans : forall a b c, cmp a b = Lt -> cmp b c = Lt -> cmp a c = Lt.

  Lemma cmp_refl_ a : cmp a a = Eq.
  Proof. apply cmp_eq; reflexivity. Qed.

  Lemma cmp_gt_lt_ a b : cmp a b = Gt -> cmp b a = Lt.
  Proof. intro H. rewrite cmp_antisym, H. reflexivity. Qed.

  Lemma m_above_trans {V} k k' (m : list (K * V)) : cmp k k' = Lt -> m_above k' m -> m_above k m.
  Proof.
    intros Hk. induction m as [|[k1 v1] m IH]; simpl; auto.
    intros [H1 H2]; split; eauto.
  Qed.

  Lemma m_above_find {V} k (m : list (K * V)) : m_above k m -> m_find k m = None.
  Proof.
    induction m as [|[k1 v1] m IH]; simpl; auto.
    intros [H1 H2]. rewrite H1. auto.
  Qed.

  Lemma m_set_above {V} k k' (v : V) m : cmp k' k = Lt -> m_above k' m -> m_above k' (m_set k v m).
  Proof.
    intros Hk. induction m as [|[k1 v1] m IH]; simpl; auto.
    intros [H1 H2]. destruct (cmp k k1) eqn:E; simpl; auto.
  Qed.

  Lemma m_set_sorted {V} k (v : V) m : m_sorted m -> m_sorted (m_set k v m).
  Proof.
    induction m as [|[k1 v1] m IH]; simpl; auto.
    intros [H1 H2]. destruct (cmp k k1) eqn:E; simpl; auto.
    - apply cmp_eq in E; subst. auto.
    - repeat split; auto. eapply m_above_trans; eauto.
    - split; auto. apply m_set_above; auto. apply cmp_gt_lt_; auto.
  Qed.

  Lemma m_erase_above {V} k k' (m : list (K * V)) : m_above k' m -> m_above k' (m_erase k m).
  Proof.
    induction m as [|[k1 v1] m IH]; simpl; auto.
    intros [H1 H2]. destruct (cmp k k1) eqn:E; simpl; auto.
  Qed.

  Lemma m_erase_sorted {V} k (m : list (K * V)) : m_sorted m -> m_sorted (m_erase k m).
  Proof.
    induction m as [|[k1 v1] m IH]; simpl; auto.
    intros [H1 H2]. destruct (cmp k k1) eqn:E; simpl; auto using m_erase_above.
  Qed.

  Lemma m_find_set_eq {V} k (v : V) m : m_find k (m_set k v m) = Some v.
  Proof.
    induction m as [|[k1 v1] m IH]; simpl.
    - rewrite cmp_refl_; reflexivity.
    - destruct (cmp k k1) eqn:E; simpl; rewrite ?cmp_refl_, ?E; auto.
  Qed.

  Lemma m_find_set_ne {V} k k' (v : V) m : k <> k' -> m_find k (m_set k' v m) = m_find k m.
  Proof.
    intro Hne. assert (Hc : cmp k k' <> Eq) by (rewrite cmp_eq; exact Hne).
    induction m as [|[k1 v1] m IH]; simpl.
    - destruct (cmp k k'); congruence.
    - destruct (cmp k' k1) eqn:E; simpl.
      + apply cmp_eq in E; subst k1. destruct (cmp k k'); congruence.
      + destruct (cmp k k') eqn:E2; congruence.
      + rewrite IH. reflexivity.
  Qed.

  Lemma m_find_erase_eq {V} k (m : list (K * V)) : m_sorted m -> m_find k (m_erase k m) = None.
  Proof.
    induction m as [|[k1 v1] m IH]; simpl; auto.
    intros [H1 H2]. destruct (cmp k k1) eqn:E; simpl; rewrite ?E; auto.
    apply cmp_eq in E; subst. apply m_above_find; auto.
  Qed.

  Lemma m_find_erase_ne {V} k k' (m : list (K * V)) : k <> k' -> m_find k (m_erase k' m) = m_find k m.
  Proof.
    intro Hne. assert (Hc : cmp k k' <> Eq) by (rewrite cmp_eq; exact Hne).
    induction m as [|[k1 v1] m IH]; simpl; auto.
    destruct (cmp k' k1) eqn:E; simpl.
    - apply cmp_eq in E; subst k1. destruct (cmp k k'); congruence.
    - rewrite IH; reflexivity.
    - rewrite IH; reflexivity.
  Qed.

  Lemma m_find_keys {V} k (m : list (K * V)) : In k (m_keys m) <-> m_find k m <> None.
  Proof.
    induction m as [|[k1 v1] m IH]; simpl.
    - split; [intros []|congruence].
    - destruct (cmp k k1) eqn:E.
      + apply cmp_eq in E; subst. split; [congruence|auto].
      + rewrite <- IH. split; [intros [->|H]; auto; rewrite cmp_refl_ in E; discriminate|auto].
      + rewrite <- IH. split; [intros [->|H]; auto; rewrite cmp_refl_ in E; discriminate|auto].
  Qed.

  Lemma m_find_in {V} k v (m : list (K * V)) : m_find k m = Some v -> In (k, v) m.
  Proof.
    induction m as [|[k1 v1] m IH]; simpl; [discriminate|].
    destruct (cmp k k1) eqn:E; auto.
    intro H; injection H as ->. apply cmp_eq in E; subst; auto.
  Qed.

  Lemma m_above_in {V} k k' v (m : list (K * V)) : m_above k m -> In (k', v) m -> cmp k k' = Lt.
  Proof.
    induction m as [|[k1 v1] m IH]; simpl; [intros _ []|].
    intros [H1 H2] [H|H]; [congruence|auto].
  Qed.

  Lemma m_in_find {V} k v (m : list (K * V)) : m_sorted m -> In (k, v) m -> m_find k m = Some v.
  Proof.
    induction m as [|[k1 v1] m IH]; simpl; [intros _ []|].
    intros [H1 H2] [H|H].
    - injection H as -> ->. rewrite cmp_refl_. reflexivity.
    - pose proof (m_above_in _ _ _ _ H1 H) as Hlt.
      rewrite cmp_antisym, Hlt; simpl; auto.
  Qed.

  Lemma m_has_true {V} k (m : list (K * V)) : m_has k m = true <-> m_find k m <> None.
  Proof. unfold m_has. destruct (m_find k m); split; congruence. Qed.
  Lemma m_has_false {V} k (m : list (K * V)) : m_has k m = false <-> m_find k m = None.
  Proof. unfold m_has. destruct (m_find k m); split; congruence. Qed.

  (** Two sorted maps with the same lookups are equal. *)
  Lemma m_ext {V} (m1 m2 : list (K * V)) :
    m_sorted m1 -> m_sorted m2 -> (forall k, m_find k m1 = m_find k m2) -> m1 = m2.
  Proof.
    revert m2; induction m1 as [|[k1 v1] m1 IH]; intros [|[k2 v2] m2]; simpl; auto.
    - intros _ _ H. specialize (H k2). rewrite cmp_refl_ in H. discriminate.
    - intros _ _ H. specialize (H k1). rewrite cmp_refl_ in H. discriminate.
    - intros [Ha1 Hs1] [Ha2 Hs2] H.
      assert (Hk : k1 = k2).
      { destruct (cmp k1 k2) eqn:E.
        - apply cmp_eq; auto.
        - pose proof (H k1) as H'. rewrite cmp_refl_, E in H'.
          rewrite m_above_find in H'; [discriminate|]. eapply m_above_trans; eauto.
        - apply cmp_gt_lt_ in E. pose proof (H k2) as H'. rewrite cmp_refl_, E in H'.
          rewrite m_above_find in H'; [discriminate|]. eapply m_above_trans; eauto. }
      subst k2.
      assert (v1 = v2) by (specialize (H k1); rewrite !cmp_refl_ in H; congruence).
      subst v2. f_equal. apply IH; auto.
      intro k. specialize (H k). destruct (cmp k k1) eqn:E; auto.
      apply cmp_eq in E; subst. rewrite !m_above_find; auto.
  Qed.

  Lemma m_sorted_NoDup {V} (m : list (K * V)) : m_sorted m -> NoDup (m_keys m).
  Proof.
    induction m as [|[k v] m IH]; simpl; [constructor|].
    intros [Ha Hs]. constructor; auto.
    rewrite m_find_keys. rewrite m_above_find; auto.
  Qed.
End SMap.

Definition smap (V : Type) := list (str * V).
Definition sfind {V} := @m_find str str_cmp V.
Definition sset {V} := @m_set str str_cmp V.
Definition serase {V} := @m_erase str str_cmp V.
Definition shas {V} := @m_has str str_cmp V.
Definition skeys {V} := @m_keys str V.
Definition ssorted {V} := @m_sorted str str_cmp V.

Section SMapStr.
  Context {V : Type}.
  Implicit Types (k : str) (v : V) (m : smap V).
  Lemma sset_sorted k v m : ssorted m -> ssorted (sset k v m).
  Proof. apply m_set_sorted; auto using str_cmp_eq, str_cmp_antisym. apply str_cmp_trans. Qed.
  Lemma serase_sorted k m : ssorted m -> ssorted (serase k m).
  Proof. apply m_erase_sorted; auto using str_cmp_eq, str_cmp_antisym. Qed.
  Lemma sfind_set_eq k v m : sfind k (sset k v m) = Some v.
  Proof. apply m_find_set_eq; auto using str_cmp_eq, str_cmp_antisym. Qed.
  Lemma sfind_set_ne k k' v m : k <> k' -> sfind k (sset k' v m) = sfind k m.
  Proof. apply m_find_set_ne; auto using str_cmp_eq, str_cmp_antisym. Qed.
  Lemma sfind_erase_eq k m : ssorted m -> sfind k (serase k m) = None.
  Proof. apply m_find_erase_eq; auto using str_cmp_eq, str_cmp_antisym. Qed.
  Lemma sfind_erase_ne k k' m : k <> k' -> sfind k (serase k' m) = sfind k m.
  Proof. apply m_find_erase_ne; auto using str_cmp_eq, str_cmp_antisym. Qed.
  Lemma sfind_keys k m : In k (skeys m) <-> sfind k m <> None.
  Proof. apply m_find_keys; auto using str_cmp_eq, str_cmp_antisym. Qed.
  Lemma sfind_in k v m : sfind k m = Some v -> In (k, v) m.
  Proof. apply m_find_in; auto using str_cmp_eq, str_cmp_antisym. Qed.
  Lemma sin_find k v m : ssorted m -> In (k, v) m -> sfind k m = Some v.
  Proof. apply m_in_find; auto using str_cmp_eq, str_cmp_antisym. Qed.
  Lemma smap_ext m1 m2 : ssorted m1 -> ssorted m2 -> (forall k, sfind k m1 = sfind k m2) -> m1 = m2.
  Proof. apply m_ext; auto using str_cmp_eq, str_cmp_antisym. apply str_cmp_trans. Qed.
  Lemma ssorted_NoDup m : ssorted m -> NoDup (skeys m).
  Proof. apply m_sorted_NoDup; auto using str_cmp_eq, str_cmp_antisym. Qed.
  Lemma shas_true k m : shas k m = true <-> sfind k m <> None.
  Proof. apply m_has_true. Qed.
  Lemma shas_false k m : shas k m = false <-> sfind k m = None.
  Proof. apply m_has_false. Qed.
End SMapStr.

(** Keys with an arbitrary integer ([std::map<int64_t, ..>]). *)
Lemma Zcmp_eq a b : Z.compare a b = Eq <-> a = b.
Proof. apply Z.compare_eq_iff. Qed.
Lemma Zcmp_antisym a b : Z.compare b a = CompOpp (Z.compare a b).
Proof. apply Z.compare_antisym. Qed.
Lemma Zcmp_trans a b c : Z.compare a b = Lt -> Z.compare b c = Lt -> Z.compare a c = Lt.
Proof. rewrite !Z.compare_lt_iff. lia. Qed.

(** ------------------------------------------------------------------
    Character classes ("C" locale, <cctype>). *)
Definition code (c : ascii) : N := N_of_ascii c.

(** std::isspace: space, \t \n \v \f \r. *)
Definition is_space (c : ascii) : bool :=
  let n := code c in ((9 <=? n) && (n <=? 13) || (n =? 32))%N.
Definition is_upper (c : ascii) : bool := let n := code c in ((65 <=? n) && (n <=? 90))%N.
Definition is_lower (c : ascii) : bool := let n := code c in ((97 <=? n) && (n <=? 122))%N.
Definition is_alpha (c : ascii) : bool := is_upper c || is_lower c.
Definition is_digit (c : ascii) : bool := let n := code c in ((48 <=? n) && (n <=? 57))%N.
(** ::tolower / ::toupper *)
Definition to_lower (c : ascii) : ascii :=
  if is_upper c then ascii_of_N (code c + 32) else c.
Definition to_upper (c : ascii) : ascii :=
  if is_lower c then ascii_of_N (code c - 32) else c.

(** find_if over a range: drop the longest prefix satisfying p. *)
Fixpoint drop_while {A} (p : A -> bool) (l : list A) : list A :=
  match l with
  | [] => []
  | x :: l' => if p x then drop_while p l' else l
  end.
Fixpoint take_while {A} (p : A -> bool) (l : list A) : list A :=
  match l with
  | [] => []
  | x :: l' => if p x then x :: take_while p l' else []
  end.

Lemma take_drop_while {A} (p : A -> bool) l : take_while p l ++ drop_while p l = l.
Proof. induction l as [|x l IH]; simpl; auto. destruct (p x); simpl; congruence. Qed.
Lemma take_while_forall {A} (p : A -> bool) l : forallb p (take_while p l) = true.
Proof. induction l as [|x l IH]; simpl; auto. destruct (p x) eqn:E; simpl; rewrite ?E; auto. Qed.
Lemma drop_while_head {A} (p : A -> bool) l x r : drop_while p l = x :: r -> p x = false.
Proof.
  induction l as [|y l IH]; simpl; [discriminate|].
  destruct (p y) eqn:E; auto. intro H; injection H as -> ->. exact E.
Qed.
Lemma drop_while_all {A} (p : A -> bool) l : forallb p l = true -> drop_while p l = [].
Proof. induction l as [|x l IH]; simpl; auto. intro H. apply andb_true_iff in H as [-> H]. auto. Qed.
Lemma take_while_all {A} (p : A -> bool) l : forallb p l = true -> take_while p l = l.
Proof. induction l as [|x l IH]; simpl; auto. intro H. apply andb_true_iff in H as [-> H]. f_equal; auto. Qed.
Lemma drop_while_app {A} (p : A -> bool) l r :
  forallb p l = true -> drop_while p (l ++ r) = drop_while p r.
Proof. induction l as [|x l IH]; simpl; auto. intro H. apply andb_true_iff in H as [-> H]. auto. Qed.
Lemma take_while_app {A} (p : A -> bool) l r :
  forallb p l = true -> take_while p (l ++ r) = l ++ take_while p r.
Proof. induction l as [|x l IH]; simpl; auto. intro H. apply andb_true_iff in H as [-> H]. f_equal; auto. Qed.
Lemma drop_while_length {A} (p : A -> bool) l : List.length (drop_while p l) <= List.length l.
Proof. induction l as [|x l IH]; simpl; auto. destruct (p x); simpl; lia. Qed.
Lemma drop_while_idem {A} (p : A -> bool) l : drop_while p (drop_while p l) = drop_while p l.
Proof. induction l as [|x l IH]; simpl; auto. destruct (p x) eqn:E; auto. simpl. rewrite E. reflexivity. Qed.

(** prefix test *)
Fixpoint is_prefix (p s : str) : bool :=
  match p, s with
  | [], _ => true
  | x :: p', y :: s' => Ascii.eqb x y && is_prefix p' s'
  | _ :: _, [] => false
  end.
Lemma is_prefix_app p s : is_prefix p s = true <-> exists r, s = p ++ r.
Proof.
  revert s; induction p as [|x p IH]; intros s; simpl.
  - split; [intros _; exists s; reflexivity|reflexivity].
  - destruct s as [|y s]; [split; [discriminate|intros [r H]; discriminate]|].
    rewrite andb_true_iff, Ascii.eqb_eq, IH. split.
    + intros [-> [r ->]]. exists r; reflexivity.
    + intros [r H]. injection H as -> ->. eauto.
Qed.
Lemma is_prefix_self p r : is_prefix p (p ++ r) = true.
Proof. apply is_prefix_app. eauto. Qed.

(** Replace the [i]-th element (no effect when out of range). *)
Fixpoint lupd {A} (l : list A) (i : nat) (x : A) : list A :=
  match l, i with
  | [], _ => []
  | _ :: t, O => x :: t
  | y :: t, S i' => y :: lupd t i' x
  end.
Lemma lupd_length {A} (l : list A) i x : length (lupd l i x) = length l.
Proof. revert i; induction l as [|y l IH]; intros [|i]; simpl; auto. Qed.
Lemma nth_lupd_eq {A} (l : list A) i x : i < length l -> nth_error (lupd l i x) i = Some x.
Proof. revert i; induction l as [|y l IH]; intros [|i]; simpl; intro H; try lia; auto. apply IH; lia. Qed.
Lemma nth_lupd_ne {A} (l : list A) i j x : i <> j -> nth_error (lupd l i x) j = nth_error l j.
Proof. revert i j; induction l as [|y l IH]; intros [|i] [|j]; simpl; intro H; auto; try lia. Qed.
Lemma nth_error_lt {A} (l : list A) i x : nth_error l i = Some x -> i < length l.
Proof. intro H. apply nth_error_Some. congruence. Qed.
