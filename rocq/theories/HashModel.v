(** HashModel.v -- the containers of vital/kwiversys/hashtable.hxx.in (which hash_map,
    hash_set, hash_multimap and hash_multiset of hash_map.hxx.in and hash_set.hxx.in
    only wrap), with their nodes and pointers.

    A node has a value and the pointer to the next node (None: 0); a node that was
    deleted stays in the heap as None, so that using it shows.  Everything that can
    throw -- the hash function, the comparison of keys, the allocation of the bucket
    vector, making a node with a copy of a value -- is one tick of a clock; [throws]
    says which ticks throw.  [Bad] is undefined behaviour.  Numbers of elements are not
    bounded.  The function objects are the same for all tables; insertion of ranges
    (std::distance with three arguments) is left out. *)
From Coq Require Import List NArith Bool Arith.
Import ListNotations.
From Verif Require Import Base.

(** hashtable.hxx.in 177-195. *)
Definition prime_list : list N :=
  [5; 11; 23; 53; 97; 193; 389; 769; 1543; 3079; 6151; 12289; 24593; 49157; 98317; 196613; 393241; 786433; 1572869; 3145739; 6291469; 12582917; 25165843;
   50331653; 100663319; 201326611; 402653189; 805306457; 1610612741; 3221225473; 4294967291]%N.
(** 197-203: lower_bound in the list, or its last entry. *)
Definition next_prime (n : N) : N := match find (fun p => N.leb n p) prime_list with Some p => p | None => 4294967291%N end.

Section Hash.
Context {V K : Type}.
Variable key : V -> K.
Variable hash : K -> N.
Variable keq : K -> K -> bool.
Variable throws : nat -> bool.

(** 78-87, 250-256: a node, and a table in the heap of all nodes. *)
Record node := Node { n_val : V; n_next : option nat }.
Record st := St { heap : list (option node); clock : nat; bks : list (option nat); num : nat }.
Inductive out (A : Type) := Ret (s : st) (a : A) | Exc (s : st) | Bad.
Arguments Ret {A}. Arguments Exc {A}. Arguments Bad {A}.
Definition bind {A B} (x : out A) (f : st -> A -> out B) : out B := match x with Ret s a => f s a | Exc s => Exc s | Bad => Bad end.
Notation "'do' s , a <- x ; y" := (bind x (fun s a => y)) (at level 200, s name, a pattern, x at level 100, y at level 200).

Definition tick (s : st) : st := St (heap s) (S (clock s)) (bks s) (num s).
Definition call {A} (s : st) (a : A) : out A := if throws (clock s) then Exc (tick s) else Ret (tick s) a.
Definition load (s : st) (p : nat) : out node := match nth_error (heap s) p with Some (Some n) => Ret s n | _ => Bad end.
Definition with_heap (s : st) (h : list (option node)) : st := St h (clock s) (bks s) (num s).
Definition with_bks (s : st) (b : list (option nat)) : st := St (heap s) (clock s) b (num s).
Definition with_num (s : st) (n : nat) : st := St (heap s) (clock s) (bks s) n.
Definition set_next (s : st) (p : nat) (q : option nat) : out unit :=
  match nth_error (heap s) p with Some (Some n) => Ret (with_heap s (lupd (heap s) p (Some (Node (n_val n) q)))) tt | _ => Bad end.
(** 552-556. *)
Definition delete_node (s : st) (p : nat) : out unit :=
  match nth_error (heap s) p with Some (Some _) => Ret (with_heap s (lupd (heap s) p None)) tt | _ => Bad end.
(** 541-550: if the copy of the value throws, the node is given back. *)
Definition new_node (s : st) (v : V) : out nat :=
  do s, _ <- call s tt; Ret (with_heap s (heap s ++ [Some (Node v None)])) (length (heap s)).
Definition bucket (s : st) (i : nat) : out (option nat) := match nth_error (bks s) i with Some p => Ret s p | None => Bad end.
Definition set_bucket (s : st) (i : nat) (p : option nat) : out unit :=
  if Nat.ltb i (length (bks s)) then Ret (with_bks s (lupd (bks s) i p)) tt else Bad.
(** 511-529. *)
Definition bkt_num (s : st) (k : K) (n : nat) : out nat :=
  do s, h <- call s (hash k); match n with O => Bad | S _ => Ret s (N.to_nat (N.modulo h (N.of_nat n))) end.
Definition fuel (s : st) : nat := S (length (heap s)).

(** 450-470: find. *)
Fixpoint find_from (f : nat) (s : st) (p : option nat) (k : K) : out (option nat) :=
  match f with
  | O => Bad
  | S f =>
      match p with
      | None => Ret s None
      | Some x => do s, n <- load s x;
                  do s, b <- call s (keq (key (n_val n)) k);
                  if b then Ret s (Some x) else find_from f s (n_next n) k
      end
  end.
Definition ht_find (s : st) (k : K) : out (option nat) :=
  do s, n <- bkt_num s k (length (bks s));
  do s, first <- bucket s n;
  find_from (fuel s) s first k.
(** 472-482: count. *)
Fixpoint count_from (f : nat) (s : st) (p : option nat) (k : K) (r : nat) : out nat :=
  match f with
  | O => Bad
  | S f =>
      match p with
      | None => Ret s r
      | Some x => do s, n <- load s x;
                  do s, b <- call s (keq (key (n_val n)) k);
                  count_from f s (n_next n) k (if b then S r else r)
      end
  end.
Definition ht_count (s : st) (k : K) : out nat :=
  do s, n <- bkt_num s k (length (bks s));
  do s, first <- bucket s n;
  count_from (fuel s) s first k 0.

(** 343-351: the first node of bucket i or later. *)
Definition next_bucket (s : st) (i : nat) : option nat :=
  match find (fun p => match p with Some _ => true | None => false end) (skipn i (bks s)) with Some p => p | None => None end.
Definition ht_begin (s : st) : option nat := next_bucket s 0.
(** 565-578: operator++. *)
Definition incr (s : st) (x : nat) : out (option nat) :=
  do s, n <- load s x;
  match n_next n with
  | Some y => Ret s (Some y)
  | None => do s, b <- bkt_num s (key (n_val n)) (length (bks s)); Ret s (next_bucket s (S b))
  end.

(** 709-731: equal_range. *)
Fixpoint skip_equal (f : nat) (s : st) (p : option nat) (k : K) : out (option nat) :=
  match f with
  | O => Bad
  | S f =>
      match p with
      | None => Ret s None
      | Some x => do s, n <- load s x;
                  do s, b <- call s (keq (key (n_val n)) k);
                  if b then skip_equal f s (n_next n) k else Ret s (Some x)
      end
  end.
Definition equal_range (s : st) (k : K) : out (option nat * option nat) :=
  do s, n <- bkt_num s k (length (bks s));
  do s, first <- bucket s n;
  do s, r <- find_from (fuel s) s first k;
  match r with
  | None => Ret s (None, None)
  | Some x => do s, nd <- load s x;
              do s, cur <- skip_equal (fuel s) s (n_next nd) k;
              match cur with
              | Some y => Ret s (Some x, Some y)
              | None => Ret s (Some x, next_bucket s (S n))
              end
  end.

(** 866-903: resize.  The nodes of bucket b go to [tmp], a vector of n; false: the hash
    function threw. *)
Fixpoint move_chain (f : nat) (s : st) (b n : nat) (tmp : list (option nat)) : out (bool * list (option nat)) :=
  match f with
  | O => Bad
  | S f =>
      do s, first <- bucket s b;
      match first with
      | None => Ret s (true, tmp)
      | Some x =>
          do s, nd <- load s x;
          match bkt_num s (key (n_val nd)) n with
          | Bad => Bad
          | Exc s => Ret s (false, tmp)
          | Ret s nb =>
              do s, _ <- set_bucket s b (n_next nd);
              match nth_error tmp nb with
              | None => Bad
              | Some t => do s, _ <- set_next s x t; move_chain f s b n (lupd tmp nb (Some x))
              end
          end
      end
  end.
Fixpoint move_all (s : st) (bs : list nat) (n : nat) (tmp : list (option nat)) : out (bool * list (option nat)) :=
  match bs with
  | [] => Ret s (true, tmp)
  | b :: r => do s, (ok, tmp) <- move_chain (fuel s) s b n tmp;
              if ok then move_all s r n tmp else Ret s (false, tmp)
  end.
(** Deleting the nodes of a chain (893-897, 945-950). *)
Fixpoint delete_chain (f : nat) (s : st) (p : option nat) : out unit :=
  match f with
  | O => Bad
  | S f =>
      match p with
      | None => Ret s tt
      | Some x => do s, n <- load s x; do s, _ <- delete_node s x; delete_chain f s (n_next n)
      end
  end.
Fixpoint delete_all (s : st) (tmp : list (option nat)) : out unit :=
  match tmp with
  | [] => Ret s tt
  | p :: r => do s, _ <- delete_chain (fuel s) s p; delete_all s r
  end.
Definition resize (s : st) (hint : nat) : out unit :=
  let old_n := length (bks s) in
  if Nat.ltb old_n hint then
    let n := N.to_nat (next_prime (N.of_nat hint)) in
    if Nat.ltb old_n n then
      do s, _ <- call s tt;
      do s, (ok, tmp) <- move_all s (seq 0 old_n) n (repeat None n);
      if ok then Ret (with_bks s tmp) tt
      else do s, _ <- delete_all s tmp; Exc s
    else Ret s tt
  else Ret s tt.

(** 647-664: insert_unique_noresize. *)
Definition insert_unique_noresize (s : st) (v : V) : out (nat * bool) :=
  do s, n <- bkt_num s (key v) (length (bks s));
  do s, first <- bucket s n;
  do s, r <- find_from (fuel s) s first (key v);
  match r with
  | Some cur => Ret s (cur, false)
  | None => do s, tmp <- new_node s v;
            do s, _ <- set_next s tmp first;
            do s, _ <- set_bucket s n (Some tmp);
            Ret (with_num s (S (num s))) (tmp, true)
  end.
(** 666-688: insert_equal_noresize. *)
Definition insert_equal_noresize (s : st) (v : V) : out nat :=
  do s, n <- bkt_num s (key v) (length (bks s));
  do s, first <- bucket s n;
  do s, r <- find_from (fuel s) s first (key v);
  match r with
  | Some cur => do s, tmp <- new_node s v;
                do s, nc <- load s cur;
                do s, _ <- set_next s tmp (n_next nc);
                do s, _ <- set_next s cur (Some tmp);
                Ret (with_num s (S (num s))) tmp
  | None => do s, tmp <- new_node s v;
            do s, _ <- set_next s tmp first;
            do s, _ <- set_bucket s n (Some tmp);
            Ret (with_num s (S (num s))) tmp
  end.
(** 381-391. *)
Definition insert_unique (s : st) (v : V) : out (nat * bool) := do s, _ <- resize s (num s + 1); insert_unique_noresize s v.
Definition insert_equal (s : st) (v : V) : out nat := do s, _ <- resize s (num s + 1); insert_equal_noresize s v.
(** 690-708: find_or_insert (operator[] of hash_map). *)
Definition find_or_insert (s : st) (v : V) : out nat :=
  do s, _ <- resize s (num s + 1);
  do s, n <- bkt_num s (key v) (length (bks s));
  do s, first <- bucket s n;
  do s, r <- find_from (fuel s) s first (key v);
  match r with
  | Some cur => Ret s cur
  | None => do s, tmp <- new_node s v;
            do s, _ <- set_next s tmp first;
            do s, _ <- set_bucket s n (Some tmp);
            Ret (with_num s (S (num s))) tmp
  end.

(** 761-792: erase( const key_type& ): the key is a reference, maybe to the key of an
    element. *)
Inductive kref := KVal (k : K) | KOf (p : nat).
Definition read_key (s : st) (k : kref) : out K :=
  match k with KVal k => Ret s k | KOf p => do s, n <- load s p; Ret s (key (n_val n)) end.
Definition less (s : st) : st := with_num s (num s - 1).
Fixpoint erase_loop (f : nat) (s : st) (cur : nat) (next : option nat) (k : kref) (erased : nat) : out nat :=
  match f with
  | O => Bad
  | S f =>
      match next with
      | None => Ret s erased
      | Some x =>
          do s, n <- load s x;
          do s, kk <- read_key s k;
          do s, b <- call s (keq (key (n_val n)) kk);
          if b then
            do s, _ <- set_next s cur (n_next n);
            do s, _ <- delete_node s x;
            erase_loop f (less s) cur (n_next n) k (S erased)
          else erase_loop f s x (n_next n) k erased
      end
  end.
Definition erase_key (s : st) (k : kref) : out nat :=
  do s, kk <- read_key s k;
  do s, n <- bkt_num s kk (length (bks s));
  do s, first <- bucket s n;
  match first with
  | None => Ret s 0
  | Some x =>
      do s, nx <- load s x;
      do s, erased <- erase_loop (fuel s) s x (n_next nx) k 0;
      do s, nx <- load s x;
      do s, kk <- read_key s k;
      do s, b <- call s (keq (key (n_val nx)) kk);
      if b then
        do s, _ <- set_bucket s n (n_next nx);
        do s, _ <- delete_node s x;
        Ret (less s) (S erased)
      else Ret s erased
  end.

(** 795-823: erase( const iterator& ). *)
Fixpoint unlink (f : nat) (s : st) (cur : nat) (next : option nat) (p : nat) : out unit :=
  match f with
  | O => Bad
  | S f =>
      match next with
      | None => Ret s tt
      | Some x =>
          do s, n <- load s x;
          if Nat.eqb x p then
            do s, _ <- set_next s cur (n_next n);
            do s, _ <- delete_node s x;
            Ret (less s) tt
          else unlink f s x (n_next n) p
      end
  end.
Definition erase_it (s : st) (it : option nat) : out unit :=
  match it with
  | None => Ret s tt
  | Some p =>
      do s, np <- load s p;
      do s, n <- bkt_num s (key (n_val np)) (length (bks s));
      do s, cur <- bucket s n;
      match cur with
      | None => Bad
      | Some c =>
          do s, nc <- load s c;
          if Nat.eqb c p then
            do s, _ <- set_bucket s n (n_next nc);
            do s, _ <- delete_node s c;
            Ret (less s) tt
          else unlink (fuel s) s c (n_next nc) p
      end
  end.

(** 927-938: _M_erase_bucket( n, last ). *)
Definition same (a b : option nat) : bool := match a, b with None, None => true | Some x, Some y => Nat.eqb x y | _, _ => false end.
Fixpoint erase_to (f : nat) (s : st) (n : nat) (cur last : option nat) : out unit :=
  match f with
  | O => Bad
  | S f =>
      if same cur last then Ret s tt
      else match cur with
           | None => Bad
           | Some x => do s, nx <- load s x;
                       do s, _ <- delete_node s x;
                       do s, _ <- set_bucket s n (n_next nx);
                       erase_to f (less s) n (n_next nx) last
           end
  end.
Definition erase_bucket_to (s : st) (n : nat) (last : option nat) : out unit :=
  do s, cur <- bucket s n; erase_to (fuel s) s n cur last.
(** 905-924: _M_erase_bucket( n, first, last ). *)
Fixpoint seek (f : nat) (s : st) (cur : nat) (first : option nat) : out nat :=
  match f with
  | O => Bad
  | S f => do s, nc <- load s cur;
           if same (n_next nc) first then Ret s cur
           else match n_next nc with None => Bad | Some y => seek f s y first end
  end.
Fixpoint cut_to (f : nat) (s : st) (cur : nat) (next last : option nat) : out unit :=
  match f with
  | O => Bad
  | S f =>
      if same next last then Ret s tt
      else match next with
           | None => Bad
           | Some x => do s, nx <- load s x;
                       do s, _ <- set_next s cur (n_next nx);
                       do s, _ <- delete_node s x;
                       cut_to f (less s) cur (n_next nx) last
           end
  end.
Definition erase_bucket_from (s : st) (n : nat) (first last : option nat) : out unit :=
  do s, cur <- bucket s n;
  if same cur first then erase_bucket_to s n last
  else match cur with
       | None => Bad
       | Some c => do s, c <- seek (fuel s) s c first; cut_to (fuel s) s c first last
       end.
Fixpoint erase_buckets (s : st) (ns : list nat) : out unit :=
  match ns with [] => Ret s tt | n :: r => do s, _ <- erase_bucket_to s n None; erase_buckets s r end.
(** 825-846: erase( first, last ). *)
Definition it_bucket (s : st) (it : option nat) : out nat :=
  match it with None => Ret s (length (bks s)) | Some p => do s, n <- load s p; bkt_num s (key (n_val n)) (length (bks s)) end.
Definition erase_range (s : st) (first last : option nat) : out unit :=
  do s, f <- it_bucket s first;
  do s, l <- it_bucket s last;
  if same first last then Ret s tt
  else if Nat.eqb f l then erase_bucket_from s f first last
  else
    do s, _ <- erase_bucket_from s f first None;
    do s, _ <- erase_buckets s (seq (S f) (l - S f));
    if Nat.eqb l (length (bks s)) then Ret s tt else erase_bucket_to s l last.

(** 940-953: clear. *)
Fixpoint clear_from (s : st) (is : list nat) : out unit :=
  match is with
  | [] => Ret (with_num s 0) tt
  | i :: r => do s, cur <- bucket s i;
              do s, _ <- delete_chain (fuel s) s cur;
              do s, _ <- set_bucket s i None;
              clear_from s r
  end.
Definition clear (s : st) : out unit := clear_from s (seq 0 (length (bks s))).
(** 956-983: _M_copy_from, the other table given by its buckets and its number. *)
Fixpoint copy_rest (f : nat) (s : st) (copy : nat) (next : option nat) : out unit :=
  match f with
  | O => Bad
  | S f =>
      match next with
      | None => Ret s tt
      | Some y => do s, n <- load s y;
                  do s, c <- new_node s (n_val n);
                  do s, _ <- set_next s copy (Some c);
                  copy_rest f s c (n_next n)
      end
  end.
Fixpoint copy_buckets (s : st) (i : nat) (src : list (option nat)) : out unit :=
  match src with
  | [] => Ret s tt
  | None :: r => copy_buckets s (S i) r
  | Some x :: r => do s, n <- load s x;
                   do s, c <- new_node s (n_val n);
                   do s, _ <- set_bucket s i (Some c);
                   do s, _ <- copy_rest (fuel s) s c (n_next n);
                   copy_buckets s (S i) r
  end.
Definition copy_from (s : st) (src : list (option nat)) (src_num : nat) : out unit :=
  do s, _ <- call (with_bks s []) tt;     (* reserve: may throw, also where the vector is big enough already *)
  match copy_buckets (with_bks s (repeat None (length src))) 0 src with
  | Ret s _ => Ret (with_num s src_num) tt
  | Exc s => do s, _ <- clear s; Exc s
  | Bad => Bad
  end.

(** 373-379: elems_in_bucket. *)
Fixpoint chain_length (f : nat) (s : st) (p : option nat) (r : nat) : out nat :=
  match f with O => Bad | S f => match p with None => Ret s r | Some x => do s, n <- load s x; chain_length f s (n_next n) (S r) end end.
Definition elems_in_bucket (s : st) (i : nat) : out nat := do s, p <- bucket s i; chain_length (fuel s) s p 0.

(** 614-632: operator==, the buckets of both being in the same heap; [veq] compares values. *)
Variable veq : V -> V -> bool.
Fixpoint chain_eq (f : nat) (s : st) (p q : option nat) : out bool :=
  match f with
  | O => Bad
  | S f =>
      match p, q with
      | None, None => Ret s true
      | Some x, Some y => do s, n <- load s x; do s, m <- load s y;
                          if veq (n_val n) (n_val m) then chain_eq f s (n_next n) (n_next m) else Ret s false
      | _, _ => Ret s false
      end
  end.
Fixpoint buckets_eq (s : st) (a b : list (option nat)) : out bool :=
  match a, b with
  | p :: a, q :: b => do s, e <- chain_eq (fuel s) s p q; if e then buckets_eq s a b else Ret s false
  | _, _ => Ret s true
  end.
Definition ht_eq (s : st) (other : list (option nat)) : out bool :=
  if Nat.eqb (length (bks s)) (length other) then buckets_eq s (bks s) other else Ret s false.

(** Several tables over one heap; a table that was destroyed is None. *)
Record world := World { w_heap : list (option node); w_clock : nat; w_tabs : list (option (list (option nat) * nat)) }.
Definition world0 : world := World [] 0 [].
Inductive op :=
| ONew (n : nat) | OCopy (j : nat) | OAssign (i j : nat) | OSwap (i j : nat) | ODestroy (i : nat)
| OInsertUnique (i : nat) (v : V) | OInsertEqual (i : nat) (v : V) | OFindOrInsert (i : nat) (v : V)
| OInsertUniqueNoResize (i : nat) (v : V) | OInsertEqualNoResize (i : nat) (v : V)
| OEraseKey (i : nat) (k : kref) | OErase (i : nat) (it : option nat) | OEraseRange (i : nat) (first last : option nat)
| OResize (i n : nat) | OClear (i : nat)
| OFind (i : nat) (k : K) | OCount (i : nat) (k : K) | OEqualRange (i : nat) (k : K) | OIncr (i x : nat) | OElems (i n : nat) | OEq (i j : nat).
Inductive reply := RNone | RNum (n : nat) | RIt (it : option nat) | RIns (p : nat) (b : bool) | RPair (a b : option nat) | RBool (b : bool).
Inductive wout := WRet (w : world) (r : reply) | WThrow (w : world) | WBad.
Definition tab (w : world) (i : nat) : option (list (option nat) * nat) := nth i (w_tabs w) None.
Definition put_back (w : world) (i : nat) (s : st) : world := World (heap s) (clock s) (lupd (w_tabs w) i (Some (bks s, num s))).
(** A member function of table i. *)
Definition on {A} (w : world) (i : nat) (f : st -> out A) (r : A -> reply) : wout :=
  match tab w i with
  | None => WBad
  | Some (b, n) => match f (St (w_heap w) (w_clock w) b n) with
                   | Ret s a => WRet (put_back w i s) (r a)
                   | Exc s => WThrow (put_back w i s)
                   | Bad => WBad
                   end
  end.
(** The constructors: when one throws, there is no table. *)
Definition make (w : world) (f : st -> out unit) : wout :=
  match f (St (w_heap w) (w_clock w) [] 0) with
  | Ret s _ => WRet (World (heap s) (clock s) (w_tabs w ++ [Some (bks s, num s)])) RNone
  | Exc s => WThrow (World (heap s) (clock s) (w_tabs w))
  | Bad => WBad
  end.
(** 503-509. *)
Definition initialize_buckets (s : st) (n : nat) : out unit :=
  do s, _ <- call s tt; Ret (with_num (with_bks s (repeat None (N.to_nat (next_prime (N.of_nat n))))) 0) tt.
Definition step (w : world) (o : op) : wout :=
  match o with
  | ONew n => make w (fun s => initialize_buckets s n)
  | OCopy j => match tab w j with None => WBad | Some (b, n) => make w (fun s => copy_from s b n) end
  | OAssign i j => match tab w j with      (* 316-326 *)
                   | None => WBad
                   | Some (b, n) => if Nat.eqb i j then WRet w RNone
                                    else on w i (fun s => do s, _ <- clear s; copy_from s b n) (fun _ => RNone)
                   end
  | OSwap i j => match tab w i, tab w j with      (* 334-341 *)
                 | Some a, Some b => WRet (World (w_heap w) (w_clock w) (lupd (lupd (w_tabs w) i (Some b)) j (Some a))) RNone
                 | _, _ => WBad
                 end
  | ODestroy i => match on w i clear (fun _ => RNone) with      (* 328 *)
                  | WRet w r => WRet (World (w_heap w) (w_clock w) (lupd (w_tabs w) i None)) r
                  | x => x
                  end
  | OInsertUnique i v => on w i (fun s => insert_unique s v) (fun r => RIns (fst r) (snd r))
  | OInsertEqual i v => on w i (fun s => insert_equal s v) (fun p => RIt (Some p))
  | OFindOrInsert i v => on w i (fun s => find_or_insert s v) (fun p => RIt (Some p))
  | OInsertUniqueNoResize i v => on w i (fun s => insert_unique_noresize s v) (fun r => RIns (fst r) (snd r))
  | OInsertEqualNoResize i v => on w i (fun s => insert_equal_noresize s v) (fun p => RIt (Some p))
  | OEraseKey i k => on w i (fun s => erase_key s k) RNum
  | OErase i it => on w i (fun s => erase_it s it) (fun _ => RNone)
  | OEraseRange i a b => on w i (fun s => erase_range s a b) (fun _ => RNone)
  | OResize i n => on w i (fun s => resize s n) (fun _ => RNone)
  | OClear i => on w i clear (fun _ => RNone)
  | OFind i k => on w i (fun s => ht_find s k) RIt
  | OCount i k => on w i (fun s => ht_count s k) RNum
  | OEqualRange i k => on w i (fun s => equal_range s k) (fun r => RPair (fst r) (snd r))
  | OIncr i x => on w i (fun s => incr s x) RIt
  | OElems i n => on w i (fun s => elems_in_bucket s n) RNum
  | OEq i j => match tab w j with None => WBad | Some (b, _) => on w i (fun s => ht_eq s b) RBool end
  end.
End Hash.
Arguments Node {V}. Arguments St {V}. Arguments World {V}.
Arguments Ret {V A}. Arguments Exc {V A}. Arguments Bad {V A}.
Arguments KVal {K}. Arguments KOf {K}.
