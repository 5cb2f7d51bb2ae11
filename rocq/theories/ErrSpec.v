(** ErrSpec.v -- what a Python program with error handles should do, told from the
    history of what happened to the handles, without C structures and memory. *)
From Coq Require Import ZArith List Bool Ascii String Lia.
From Verif Require Import Base RegexModel ErrModel.
Import ListNotations.
Local Open Scope Z_scope.

(** What happened, the newest first. *)
Inductive event :=
| Made (h : nat) | Mapped (h : nat) (m : dict) | Gone (h : nat)
| Failed (h : nat) (code : Z) (msg : str).   (* a C function called with h failed *)
Definition hist := list event.

(** None: there is no such handle; Some None: no call with it failed; Some (Some e): the
    last failed call. *)
Fixpoint last_error (h : nat) (l : hist) : option (option (Z * str)) :=
  match l with
  | [] => None
  | Made h' :: l' => if Nat.eqb h' h then Some None else last_error h l'
  | Gone h' :: l' => if Nat.eqb h' h then None else last_error h l'
  | Failed h' c m :: l' => if Nat.eqb h' h then Some (Some (c, m)) else last_error h l'
  | Mapped _ _ :: l' => last_error h l'
  end.
(** The class for a code: the last one given for it, or VitalBaseException. *)
Definition last_entry (k : Z) (m : dict) : option pycls := option_map snd (find (fun e => fst e =? k) (rev m)).
Fixpoint class_for (h : nat) (k : Z) (l : hist) : pycls :=
  match l with
  | [] => VitalBaseException
  | Made h' :: l' => if Nat.eqb h' h then VitalBaseException else class_for h k l'
  | Gone h' :: l' => if Nat.eqb h' h then VitalBaseException else class_for h k l'
  | Mapped h' m :: l' => if Nat.eqb h' h then match last_entry k m with Some c => c | None => class_for h k l' end else class_for h k l'
  | Failed _ _ _ :: l' => class_for h k l'
  end.
Definition exists_ (h : nat) (l : hist) : bool := match last_error h l with Some _ => true | None => false end.
(** The exception a handle stands for. *)
Definition pending (h : nat) (l : hist) : flow :=
  match last_error h l with
  | None => Stuck
  | Some None => Go
  | Some (Some (c, m)) => Exc (class_for h c l, m)
  end.
(** Code and message of a failed call. *)
Definition report (f : cfun) (t : thrown) : Z * str := match inner_catch f t with Some cm => cm | None => standard_catch t end.
Definition sem_call (f : cfun) (h : option nat) (r : cdone) (l : hist) : hist * (Z + flow) :=
  match r, h with
  | Returned v, _ => (l, inl v)
  | Threw t, None => match inner_catch f t with Some _ => (l, inr Crash) | None => (l, inl 0) end
  | Threw t, Some h' => if exists_ h' l then (Failed h' (fst (report f t)) (snd (report f t)) :: l, inl 0) else (l, inr Stuck)
  end.
Definition seq_ (run : stmt -> hist -> hist * flow) : list stmt -> hist -> hist * flow :=
  fix go l s := match l with
                | [] => (s, Go)
                | c :: l' => match run c s with (s', Go) => go l' s' | r => r end
                end.
Fixpoint sem (c : stmt) (l : hist) : hist * flow :=
  match c with
  | New h => if exists_ h l then (l, Stuck) else (Made h :: l, Go)
  | SetMap h m => if exists_ h l then (Mapped h m :: l, Go) else (l, Stuck)
  | Call f h r => match sem_call f h r l with (l', inl _) => (l', Go) | (l', inr fl) => (l', fl) end
  | RetCall f h r => match sem_call f h r l with (l', inl v) => (l', Ret v) | (l', inr fl) => (l', fl) end
  | Propagate h => (l, pending h l)
  | Return v => (l, Ret v)
  | Raise e => (l, Exc e)
  | With h body =>
    if exists_ h l then
      let '(l', fl) := seq_ sem body l in
      match fl with Go | Ret _ => (l', match pending h l' with Go => fl | p => p end) | _ => (l', fl) end
    else (l, Stuck)
  | Try body handler => let '(l', fl) := seq_ sem body l in match fl with Exc _ => seq_ sem handler l' | _ => (l', fl) end
  | Drop h => if exists_ h l then (Gone h :: l, Go) else (l, Stuck)
  end.
(** Failed calls with a handle that already held an error. *)
Fixpoint again (l : hist) : nat :=
  match l with
  | [] => 0
  | Failed h _ _ :: l' => match last_error h l' with Some (Some _) => S (again l') | _ => again l' end
  | _ :: l' => again l'
  end.
