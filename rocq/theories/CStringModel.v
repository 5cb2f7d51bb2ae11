(** CStringModel.v -- strings handed to C callers: vital_string_new
    (vital/bindings/c/common.cxx 42-59), POPULATE_EH (helpers/c_utils.h 65-76,
    and the same code in config_block.cxx 405-422 and 479-484), make_string_list
    (helpers/c_utils.cxx 41-51).

    An allocated block is the list of its bytes, [None] for a byte not yet
    written.  A C string in memory is a list of bytes; it ends at its first 0.
    [malloc] always succeeds.  Writing or reading outside a block is
    [Overrun]. *)
From Coq Require Import ZArith List Bool.
Import ListNotations.
Local Open Scope Z_scope.

Definition block := list (option Z).
Inductive outcome (A : Type) := Fine (a : A) | Overrun.
Arguments Fine {A} a. Arguments Overrun {A}.
Definition malloc (n : nat) : block := repeat None n.
Definition poke (b : block) (i : nat) (v : Z) : outcome block :=
  if (i <? length b)%nat then Fine (firstn i b ++ Some v :: skipn (S i) b) else Overrun.
(** Writing bytes from position [i] on. *)
Fixpoint poke_all (b : block) (i : nat) (l : list Z) : outcome block :=
  match l with
  | [] => Fine b
  | v :: r => match poke b i v with Fine b' => poke_all b' (S i) r | Overrun => Overrun end
  end.
(** strlen: the bytes before the first 0 of a terminated string. *)
Fixpoint strlen (s : list Z) : nat := match s with [] => 0 | c :: r => if c =? 0 then 0 else S (strlen r) end.
(** strcpy(dst, src): the bytes before the first 0, and a 0. *)
Definition strcpy (dst : block) (src : list Z) : outcome block := poke_all dst 0 (firstn (strlen src) src ++ [0]).
(** strncpy(dst, src, n): stops at the first 0 and fills up with 0; reads at
    most n bytes of src.  [Overrun] when src ends before that. *)
Fixpoint take_n (src : list Z) (n : nat) : outcome (list Z) :=
  match n with
  | O => Fine []
  | S m => match src with
           | [] => Overrun
           | c :: r => if c =? 0 then Fine (repeat 0 n)
                       else match take_n r m with Fine l => Fine (c :: l) | Overrun => Overrun end
           end
  end.
Definition strncpy (dst : block) (src : list Z) (n : nat) : outcome block :=
  match take_n src n with Fine l => poke_all dst 0 l | Overrun => Overrun end.

(** common.cxx 42-59; s is NULL or points to the given bytes.  The result is
    (length, str). *)
Definition vital_string_new (length : nat) (s : option (list Z)) : outcome (nat * block) :=
  match poke (malloc (length + 1)) length 0 with
  | Overrun => Overrun
  | Fine b =>
    match length, s with
    | S _, Some src => match strncpy b src length with Fine b' => Fine (length, b') | Overrun => Overrun end
    | _, _ => Fine (length, b)
    end
  end.

(** An error handle: code and message (NULL at first). *)
Record eh := mkEh { e_code : Z; e_msg : option block }.
(** c_utils.h 65-76 with a non-NULL handle. *)
Definition populate_eh (e : eh) (ec : Z) (msg : list Z) : outcome eh :=
  match strcpy (malloc (strlen msg)) msg with Fine b => Fine (mkEh ec (Some b)) | Overrun => Overrun end.
(** c_utils.cxx 41-51; list[i].length() counts the bytes of the std::string,
    c_str() adds a 0. *)
Fixpoint string_list (l : list (list Z)) : outcome (list block) :=
  match l with
  | [] => Fine []
  | s :: r => match strcpy (malloc (length s)) (s ++ [0]) with
              | Fine b => match string_list r with Fine bs => Fine (b :: bs) | Overrun => Overrun end
              | Overrun => Overrun
              end
  end.
