(** HashSpec.v -- C122: what the member functions of the hash containers do, in terms of the
    sequence of elements that begin() and ++ run through. *)
From Coq Require Import List NArith Bool Arith Permutation.
Import ListNotations.
From Verif Require Import Base HashModel.

Section Spec.
Context {V K : Type}.
Variable key : V -> K.
Variable hash : K -> N.
Variable keq : K -> K -> bool.
Variable throws : nat -> bool.
Variable veq : V -> V -> bool.
(** An element: where it is (an iterator, a pointer) and its value. *)
Notation el := (nat * V)%type.
Notation world := (@world V).
Notation ids := (map (@fst nat V)).
Definition never (t : nat) : bool := false.

(** From an iterator to the end, as long as nothing throws. *)
Inductive walk (s : @st V) : option nat -> list el -> Prop :=
| walk_end : walk s None []
| walk_next x v n s' y l : nth_error (heap s) x = Some (Some (Node v n)) -> incr key hash never s x = Ret s' y -> walk s y l -> walk s (Some x) ((x, v) :: l).
Definition table (w : world) (i : nat) (s : @st V) : Prop := exists b n, tab w i = Some (b, n) /\ s = St (w_heap w) (w_clock w) b n.
(** Table i has these elements, this size() and this bucket_count(). *)
Definition holds (w : world) (i : nat) (l : list el) (n c : nat) : Prop := exists s, table w i s /\ walk s (ht_begin s) l /\ n = num s /\ c = length (bks s).
Definition first (l : list el) : option nat := match l with [] => None | (x, _) :: _ => Some x end.
Definition alive (w : world) (x : nat) (v : V) : Prop := exists n, nth_error (w_heap w) x = Some (Some (Node v n)).
Definition has (k : K) (y : el) : bool := keq (key (snd y)) k.

(** The key that is meant. *)
Definition means (w : world) (k : kref) (kk : K) : Prop := match k with KVal k => k = kk | KOf p => exists v, alive w p v /\ key v = kk end.
(** Calls allowed: the tables exist, and have buckets where a bucket is looked for; iterators
    and ranges are of that table; a key handed in by reference is not the key of one of its
    elements. *)
Definition usable (w : world) (i : nat) : Prop := exists l n c, holds w i l n c /\ 0 < c.
Definition there (w : world) (i : nat) : Prop := exists l n c, holds w i l n c.
Definition legal (w : world) (o : @op V K) : Prop :=
  match o with
  | ONew _ => True
  | OCopy i | ODestroy i | OClear i => there w i
  | OAssign i j | OSwap i j | OEq i j => there w i /\ there w j
  | OInsertUnique i _ | OInsertEqual i _ | OFindOrInsert i _ | OInsertUniqueNoResize i _ | OInsertEqualNoResize i _
  | OResize i _ | OFind i _ | OCount i _ | OEqualRange i _ => usable w i
  | OEraseKey i k => usable w i /\ match k with KVal _ => True | KOf p => (exists v, alive w p v) /\ forall l n c, holds w i l n c -> ~ In p (ids l) end
  | OErase i it => there w i /\ forall x, it = Some x -> exists l n c, holds w i l n c /\ In x (ids l)
  | OEraseRange i a b => exists A M C n c, holds w i (A ++ M ++ C) n c /\ a = first (M ++ C) /\ b = first C
  | OIncr i x => exists l n c, holds w i l n c /\ In x (ids l)
  | OElems i b => exists l n c, holds w i l n c /\ b < c
  end.

(** bucket_count() after room for [hint] elements was asked for. *)
Definition room (c hint : nat) : nat := if Nat.ltb c hint then Nat.max c (N.to_nat (next_prime (N.of_nat hint))) else c.
Definition new_in (l : list el) (v : V) (l' : list el) (x : nat) : Prop := ~ In x (ids l) /\ Permutation l' ((x, v) :: l).
Definition unique_insert (l : list el) (n : nat) (v : V) (l' : list el) (n' x : nat) (b : bool) : Prop :=
  if b then (forall y, In y l -> has (key v) y = false) /\ new_in l v l' x /\ n' = S n
  else (exists u, In (x, u) l /\ keq (key u) (key v) = true) /\ Permutation l' l /\ n' = n.
(** A call that returns; for the table it is called on, before and after. *)
Definition effect (w : world) (o : @op V K) (l : list el) (n c : nat) (l' : list el) (n' c' : nat) (r : reply) : Prop :=
  match o with
  | OInsertUnique _ v => c' = room c (n + 1) /\ exists x b, r = RIns x b /\ unique_insert l n v l' n' x b
  | OInsertUniqueNoResize _ v => c' = c /\ exists x b, r = RIns x b /\ unique_insert l n v l' n' x b /\ (b = false -> l' = l)
  | OFindOrInsert _ v => c' = room c (n + 1) /\ exists x b, r = RIt (Some x) /\ unique_insert l n v l' n' x b
  | OInsertEqual _ v => c' = room c (n + 1) /\ exists x, r = RIt (Some x) /\ new_in l v l' x /\ n' = S n
  | OInsertEqualNoResize _ v => c' = c /\ exists x, r = RIt (Some x) /\ new_in l v l' x /\ n' = S n
  | OEraseKey _ k => c' = c /\ exists kk e, means w k kk /\ r = RNum e /\ Permutation l' (filter (fun y => negb (has kk y)) l) /\ e = length (filter (has kk) l) /\ n' + e = n
  | OErase _ None => c' = c /\ l' = l /\ n' = n
  | OErase _ (Some x) => c' = c /\ S n' = n /\ exists A v C, l = A ++ (x, v) :: C /\ l' = A ++ C
  | OEraseRange _ a b => c' = c /\ exists A M C, l = A ++ M ++ C /\ a = first (M ++ C) /\ b = first C /\ l' = A ++ C /\ n' + length M = n
  | OResize _ h => c' = room c h /\ Permutation l' l /\ n' = n
  | OClear _ => c' = c /\ l' = [] /\ n' = 0
  | OFind _ k => c' = c /\ l' = l /\ n' = n /\ exists it, r = RIt it /\ match it with None => forall y, In y l -> has k y = false | Some x => exists u, In (x, u) l /\ keq (key u) k = true end
  | OCount _ k => c' = c /\ l' = l /\ n' = n /\ r = RNum (length (filter (has k) l))
  | OEqualRange _ k => c' = c /\ l' = l /\ n' = n /\ exists A M C, l = A ++ M ++ C /\ (forall y, In y M -> has k y = true) /\ (forall y, In y (A ++ C) -> has k y = false) /\
                       r = (match M with [] => RPair None None | _ => RPair (first (M ++ C)) (first C) end)
  | OIncr _ x => c' = c /\ l' = l /\ n' = n /\ exists A v C, l = A ++ (x, v) :: C /\ r = RIt (first C)
  | OElems _ b => c' = c /\ l' = l /\ n' = n /\ r = RNum (length (filter (fun y => N.eqb (N.modulo (hash (key (snd y))) (N.of_nat c)) (N.of_nat b)) l))
  | OEq _ j => c' = c /\ l' = l /\ n' = n /\ exists b m nm cm, r = RBool b /\ holds w j m nm cm /\ (b = true -> c = cm /\ Forall2 (fun x y => veq (snd x) (snd y) = true) l m) /\
                                          (c = cm -> Forall2 (fun x y => veq (snd x) (snd y) = true /\ keq (key (snd x)) (key (snd y)) = true) l m -> b = true)
  | _ => False
  end.
(** A call that throws. *)
Definition failed (w : world) (o : @op V K) (l : list el) (n c : nat) (l' : list el) (n' c' : nat) : Prop :=
  match o with
  | OInsertUnique _ _ | OInsertEqual _ _ | OFindOrInsert _ _ => n' = n /\ (n < c -> l' = l /\ c' = c) /\ exists gone, Permutation l (gone ++ l')
  | OResize _ _ => n' = n /\ c' = c /\ exists gone, l = gone ++ l'
  | OEraseKey _ k => c' = c /\ n' + length l = n + length l' /\ exists kk gone, means w k kk /\ Permutation l (gone ++ l') /\ forall y, In y gone -> has kk y = true
  | OInsertUniqueNoResize _ _ | OInsertEqualNoResize _ _ | OErase _ (Some _) | OEraseRange _ _ _ | OFind _ _ | OCount _ _ | OEqualRange _ _ | OIncr _ _ => c' = c /\ l' = l /\ n' = n
  | _ => False
  end.
(** The table a member function is called on. *)
Definition subject (o : @op V K) : option nat :=
  match o with
  | ONew _ | OCopy _ | OAssign _ _ | OSwap _ _ | ODestroy _ => None
  | OInsertUnique i _ | OInsertEqual i _ | OFindOrInsert i _ | OInsertUniqueNoResize i _ | OInsertEqualNoResize i _ | OEraseKey i _ | OErase i _ | OEraseRange i _ _
  | OResize i _ | OClear i | OFind i _ | OCount i _ | OEqualRange i _ | OIncr i _ | OElems i _ | OEq i _ => Some i
  end.
(** The other tables stay as they are. *)
Definition others (w w' : world) (i : nat) : Prop := length (w_tabs w') = length (w_tabs w) /\ forall j l n c, j <> i -> (holds w j l n c <-> holds w' j l n c).

(** Every table there was stays as it is. *)
Definition kept (w w' : world) : Prop := forall j l n c, j < length (w_tabs w) -> (holds w j l n c <-> holds w' j l n c).
(** Constructors, operator=, swap and the destructor, when they return or throw. *)
Definition whole (w : world) (o : @op V K) (w' : world) (returned : bool) : Prop :=
  match o, returned with
  | ONew n, true => length (w_tabs w') = S (length (w_tabs w)) /\ kept w w' /\ holds w' (length (w_tabs w)) [] 0 (N.to_nat (next_prime (N.of_nat n)))
  | OCopy j, true => length (w_tabs w') = S (length (w_tabs w)) /\ kept w w' /\ exists l n c l', holds w j l n c /\ holds w' (length (w_tabs w)) l' n c /\ map snd l' = map snd l /\ forall x v, In x (ids l') -> ~ alive w x v
  | ONew _, false | OCopy _, false => length (w_tabs w') = length (w_tabs w) /\ kept w w'
  | OAssign i j, true => if Nat.eqb i j then w' = w else others w w' i /\ exists l n c l', holds w j l n c /\ holds w' i l' n c /\ map snd l' = map snd l
  | OAssign i j, false => i <> j /\ others w w' i /\ exists l n c c', holds w j l n c /\ holds w' i [] 0 c' /\ (c' = 0 \/ c' = c)
  | OSwap i j, true => length (w_tabs w') = length (w_tabs w) /\ (forall l n c, (holds w i l n c <-> holds w' j l n c) /\ (holds w j l n c <-> holds w' i l n c)) /\ forall k l n c, k <> i -> k <> j -> (holds w k l n c <-> holds w' k l n c)
  | ODestroy i, true => others w w' i /\ tab w' i = None
  | _, _ => False
  end.

(** Histories: any calls that are allowed, any exceptions; [ok] may restrict which. *)
Inductive reach (ok : @op V K -> bool -> Prop) : world -> Prop :=
| reach0 : reach ok world0
| reach_returns w o w' r : reach ok w -> legal w o -> ok o false -> step key hash keq throws veq w o = WRet w' r -> reach ok w'
| reach_throws w o w' : reach ok w -> legal w o -> ok o true -> step key hash keq throws veq w o = WThrow w' -> reach ok w'.
Definition anything (o : @op V K) (threw : bool) : Prop := True.
(** No insertion and no resize has thrown. *)
Definition grown_well (o : @op V K) (threw : bool) : Prop :=
  match o with OInsertUnique _ _ | OInsertEqual _ _ | OFindOrInsert _ _ | OResize _ _ => threw = false | _ => True end.
(** hash_map and hash_set. *)
Definition single (o : @op V K) (threw : bool) : Prop := match o with OInsertEqual _ _ | OInsertEqualNoResize _ _ => False | _ => True end.
(** Elements with equal keys follow each other. *)
Definition together (l : list el) : Prop := forall A x B y C z D, l = A ++ x :: B ++ y :: C ++ z :: D -> keq (key (snd x)) (key (snd z)) = true -> keq (key (snd x)) (key (snd y)) = true.
(** What the function objects must be. *)
Definition lawful : Prop := (forall a, keq a a = true) /\ (forall a b, keq a b = true -> keq b a = true) /\ (forall a b c, keq a b = true -> keq b c = true -> keq a c = true) /\ (forall a b, keq a b = true -> hash a = hash b).
End Spec.
