(** CovarModel.v -- vital/types/covariance.h: covariance_<N,T>.

    The storage is an array of data_size elements; [None] is an element that
    was never initialised.  Writes outside the array are undefined ([None] for
    the whole operation).  Index arithmetic is unsigned 32-bit.  The element
    type is abstract: [avg x y] is (x + y) / 2, [cast] is static_cast. *)
From Coq Require Import List Bool ZArith.
From Verif Require Import Base.
Import ListNotations.
Local Open Scope Z_scope.

Definition u32 (z : Z) : Z := z mod 2 ^ 32.
(** covariance.h 54: data_size = N * ( N + 1 ) / 2. *)
Definition data_size (N : nat) : nat := Z.to_nat (u32 (Z.of_nat N * u32 (Z.of_nat N + 1)) / 2).
(** covariance.h 160-163: vector_index. *)
Definition vector_index (i j : nat) : nat :=
  let i := Z.of_nat i in let j := Z.of_nat j in
  Z.to_nat (if i <? j then u32 (u32 (j * u32 (j + 1)) / 2 + i) else u32 (u32 (i * u32 (i + 1)) / 2 + j)).

Section Covar.
Context {T : Type}.
Definition cov := list (option T).
(** covariance.h 57: the default constructor initialises nothing. *)
Definition fresh (N : nat) : cov := repeat None (data_size N).
(** data_[n++] = v. *)
Definition put (v : T) (s : cov * nat) : option (cov * nat) :=
  let '(d, n) := s in if (n <? length d)%nat then Some (lupd d n (Some v), S n) else None.
(** for ( i = 0; i < k; ++i ) body. *)
Fixpoint loop {S : Type} (body : nat -> S -> option S) (i k : nat) (s : S) : option S :=
  match k with
  | O => Some s
  | Datatypes.S k' => match body i s with Some s' => loop body (Datatypes.S i) k' s' | None => None end
  end.
(** covariance.h 96-107: from a matrix; 78-89 has the same loops. *)
Definition fill (N : nat) (off : nat -> nat -> T) (diag : nat -> T) : option cov :=
  match loop (fun j s =>
    match loop (fun i s => put (off i j) s) 0 j s with
    | Some s' => put (diag j) s'
    | None => None
    end) 0 N (fresh N, 0%nat) with Some (d, _) => Some d | None => None end.
Definition from_matrix (avg : T -> T -> T) (N : nat) (mat : nat -> nat -> T) : option cov :=
  fill N (fun i j => avg (mat i j) (mat j i)) (fun j => mat j j).
(** covariance.h 78-89: value times the identity. *)
Definition from_scalar (zero : T) (N : nat) (value : T) : option cov := fill N (fun _ _ => zero) (fun _ => value).
(** covariance.h 118-131: to a matrix (a partial function while it is being
    filled); reading outside the storage is undefined, an uninitialised
    element is copied as it is. *)
Definition pmat := nat -> nat -> option T.
Definition mset (m : pmat) (i j : nat) (v : option T) : pmat := fun a b => if ((a =? i) && (b =? j))%nat then v else m a b.
Definition to_matrix (N : nat) (c : cov) : option pmat :=
  match loop (fun j s =>
    match loop (fun i (s : pmat * nat) => let '(m, n) := s in match nth_error c n with Some v => Some (mset (mset m j i v) i j v, S n) | None => None end) 0 j s with
    | Some (m, n) => match nth_error c n with Some v => Some (mset m j j v, S n) | None => None end
    | None => None
    end) 0 N (fun _ _ => None, 0%nat) with Some (m, _) => Some m | None => None end.
(** covariance.h 135-149: operator()( i, j ), read and written through. *)
Definition get (c : cov) (i j : nat) : option (option T) := nth_error c (vector_index i j).
Definition set (c : cov) (i j : nat) (v : T) : option cov :=
  if (vector_index i j <? length c)%nat then Some (lupd c (vector_index i j) (Some v)) else None.
End Covar.
Arguments cov : clear implicits.
(** covariance.h 66-75: the constructor from another element type. *)
Definition convert {U T : Type} (cast : U -> T) (N : nat) (other : cov U) : option (cov T) :=
  match loop (fun _ (s : cov T * nat) => let '(d, n) := s in
    match nth_error other n with
    | Some v => if (n <? length d)%nat then Some (lupd d n (option_map cast v), S n) else None
    | None => None
    end) 0 N (@fresh T N, 0%nat) with Some (d, _) => Some d | None => None end.
