(** SparseModel.v -- vital/util/enumerate_matrix.h: iterating over the stored
    cells of an Eigen::SparseMatrix.

    The matrix is its arrays: outer start positions (outerSize + 1 of them),
    the per-outer counts when the matrix is not compressed, inner indices and
    values.  Eigen's InnerIterator (library code): position m_id and limit
    m_end; it is valid while m_id < m_end; ++ adds one to m_id; reading the
    start arrays outside their bounds is undefined ([None]).  Index types are
    unbounded. *)
From Coq Require Import List Bool PeanoNat.
Import ListNotations.

Section Sparse.
Context {V : Type}.
Record matrix := mkM { a_outer : nat; a_start : list nat; a_count : option (list nat); a_inner : list nat; a_value : list V }.
(** Eigen: SparseMatrix::InnerIterator(mat, j). *)
Definition inner_at (a : matrix) (j : nat) : option (nat * nat) :=
  match nth_error (a_start a) j with
  | None => None
  | Some s =>
    match a_count a with
    | None => match nth_error (a_start a) (S j) with Some e => Some (s, e) | None => None end
    | Some c => match nth_error c j with Some n => Some (s, s + n) | None => None end
    end
  end.
(** enumerate_matrix.h 82-86: m_outer and m_inner (m_end is outerSize). *)
Record iter := mkIt { i_outer : nat; i_inner : option (nat * nat) }.
(** enumerate_matrix.h 117-121: the end iterator. *)
Definition end_iter : iter := mkIt 0 None.
(** enumerate_matrix.h 161-184: operator++; the recursion for empty columns has
    fuel, and running out is [None] ([next] gives enough). *)
Fixpoint incr (fuel : nat) (a : matrix) (it : iter) : option iter :=
  match fuel with
  | O => None
  | S f =>
    match i_inner it with
    | None => Some it
    | Some (id, e) =>
      if S id <? e then Some (mkIt (i_outer it) (Some (S id, e)))
      else
        let o := S (i_outer it) in
        if o <? a_outer a then
          match inner_at a o with
          | None => None
          | Some (id', e') => if id' <? e' then Some (mkIt o (Some (id', e'))) else incr f a (mkIt o (Some (id', e')))
          end
        else Some (mkIt o None)
    end
  end.
Definition next (a : matrix) (it : iter) : option iter := incr (S (a_outer a)) a it.
(** enumerate_matrix.h 123-133: iterator(mat), which is begin(). *)
Definition begin_iter (a : matrix) : option iter :=
  match inner_at a 0 with
  | None => None
  | Some (id, e) => if id <? e then Some (mkIt 0 (Some (id, e))) else next a (mkIt 0 (Some (id, e)))
  end.
(** *it: outer index, inner index and value of the cell. *)
Definition deref (a : matrix) (it : iter) : option (nat * nat * V) :=
  match i_inner it with
  | None => None
  | Some (id, _) =>
    match nth_error (a_inner a) id, nth_error (a_value a) id with Some i, Some v => Some (i_outer it, i, v) | _, _ => None end
  end.
(** enumerate_matrix.h 142-159: operator==, for iterators over matrix [a]
    (or end iterators); [None] for reading an invalid inner index. *)
Definition iter_eq (a : matrix) (x y : iter) : option bool :=
  match i_inner x, i_inner y with
  | None, None => Some true
  | Some (id, _), Some (id', _) =>
    if i_outer x =? i_outer y then
      match nth_error (a_inner a) id, nth_error (a_inner a) id' with Some p, Some q => Some (p =? q) | _, _ => None end
    else Some false
  | _, _ => Some false
  end.
(** for (it = begin; it != end; ++it) visit( *it ). *)
Fixpoint visit (fuel : nat) (a : matrix) (it : iter) : option (list (nat * nat * V)) :=
  match fuel with
  | O => None
  | S f =>
    match iter_eq a it end_iter with
    | Some true => Some []
    | Some false =>
      match deref a it, next a it with
      | Some c, Some it' => match visit f a it' with Some l => Some (c :: l) | None => None end
      | _, _ => None
      end
    | None => None
    end
  end.
Definition enumerate (fuel : nat) (a : matrix) : option (list (nat * nat * V)) :=
  match begin_iter a with Some it => visit fuel a it | None => None end.
(** The iterator after n increments from begin. *)
Fixpoint advance (n : nat) (a : matrix) : option iter :=
  match n with
  | O => begin_iter a
  | S m => match advance m a with Some it => next a it | None => None end
  end.
End Sparse.
