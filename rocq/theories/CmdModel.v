(** CmdModel.v -- splitting a command line into arguments
    (vital/kwiversys/System.c 35-301).

    Memory: malloc answers are given by an oracle (the n-th call succeeds iff
    [ok n]); the blocks now allocated are a list of numbers; writing past a
    buffer, freeing what is not allocated and signed overflow are the outcome
    [CUB].  Byte and pointer buffers start as the local arrays of the function
    ([b_loc = None]). *)
From Coq Require Import List Bool Arith Ascii ZArith.
Import ListNotations.
From Verif Require Import Base RegexModel.

Record cmem := mkCM { cm_calls : nat; cm_live : list nat }.   (* mallocs made so far; blocks allocated *)
Definition cmem0 : cmem := mkCM 0 [].
Definition malloc (ok : nat -> bool) (m : cmem) : option nat * cmem :=
  if ok (cm_calls m) then (Some (cm_calls m), mkCM (S (cm_calls m)) (cm_live m ++ [cm_calls m]))
  else (None, mkCM (S (cm_calls m)) (cm_live m)).
Definition cfree (m : cmem) (p : nat) : option cmem :=
  if existsb (Nat.eqb p) (cm_live m) then Some (mkCM (cm_calls m) (remove Nat.eq_dec p (cm_live m))) else None.

(** A growing buffer: where it is, its size (an int), what is in it. *)
Record cbuf (A : Type) := mkB { b_loc : option nat; b_size : Z; b_data : list A }.
Arguments mkB {A}. Arguments b_loc {A}. Arguments b_size {A}. Arguments b_data {A}.

Inductive cres (A : Type) := COk (x : A) (m : cmem) | CFail (m : cmem) | CUB.
Arguments COk {A}. Arguments CFail {A}. Arguments CUB {A}.

Definition INT_MAX : Z := (2 ^ 31 - 1)%Z.
(** 38-56 and 76-94: room for one more element.  [mul_int]: the size asked for
    is computed in int (line 42) rather than size_t (79). *)
Definition grow {A} (ok : nat -> bool) (mul_int : bool) (m : cmem) (b : cbuf A) : cres (cbuf A) :=
  if (b_size b <=? Z.of_nat (length (b_data b)))%Z then
    if mul_int && (INT_MAX <? b_size b * 2)%Z then CUB
    else
      match malloc ok m with
      | (None, m) => CFail m
      | (Some p, m) =>
        if (b_size b * 2 <? Z.of_nat (length (b_data b)))%Z then CUB     (* memcpy of what is there *)
        else
          let moved m := if (INT_MAX <? b_size b * 2)%Z then CUB else COk (mkB (Some p) (b_size b * 2)%Z (b_data b)) m in
          match b_loc b with
          | None => moved m
          | Some q => match cfree m q with Some m => moved m | None => CUB end
          end
      end
  else COk b m.
(** *( *end)++ = c. *)
Definition put {A} (m : cmem) (b : cbuf A) (x : A) : cres (cbuf A) :=
  if (b_size b <=? Z.of_nat (length (b_data b)))%Z then CUB else COk (mkB (b_loc b) (b_size b) (b_data b ++ [x])) m.
Definition append_byte (ok : nat -> bool) (m : cmem) (b : cbuf ascii) (c : ascii) : cres (cbuf ascii) :=
  match grow ok true m b with COk b m => put m b c | CFail m => CFail m | CUB => CUB end.
(** An argument: the block malloc'ed for it and the bytes in it. *)
Definition carg := (nat * str)%type.
(** Parser state: 118-133. *)
Record cst := mkC { c_args : cbuf carg; c_buf : cbuf ascii; c_arg : bool; c_esc : bool; c_single : bool; c_double : bool }.
Definition with_buf (s : cst) (b : cbuf ascii) := mkC (c_args s) b (c_arg s) (c_esc s) (c_single s) (c_double s).
Definition with_args (s : cst) (a : cbuf carg) := mkC a (c_buf s) (c_arg s) (c_esc s) (c_single s) (c_double s).
Definition with_flags (s : cst) (a e q d : bool) := mkC (c_args s) (c_buf s) a e q d.

(** The step may leave the buffers changed although it failed: the outcome
    carries the state both ways. *)
Inductive ores := OK (s : cst) (m : cmem) | Failed (s : cst) (m : cmem) | OUB.
Definition step_byte (ok : nat -> bool) (s : cst) (m : cmem) (c : ascii) : ores :=
  match append_byte ok m (c_buf s) c with COk b m => OK (with_buf s b) m | CFail m => Failed s m | CUB => OUB end.
(** 64-107 kwsysSystem__AppendArgument. *)
Definition append_argument (ok : nat -> bool) (s : cst) (m : cmem) : ores :=
  match step_byte ok s m NUL with
  | OK s m =>
    match grow ok false m (c_args s) with
    | CUB => OUB
    | CFail m => Failed s m
    | COk a m =>
      let s := with_args s a in
      match malloc ok m with
      | (None, m) => if (b_size a <=? Z.of_nat (length (b_data a)))%Z then OUB else Failed s m
      | (Some p, m) =>
        match put m a (p, b_data (c_buf s)) with
        | COk a m => OK (with_buf (with_args s a) (mkB (b_loc (c_buf s)) (b_size (c_buf s)) [])) m
        | _ => OUB
        end
      end
    end
  | r => r
  end.
(** 134-226: one character. *)
Definition step_char (ok : nat -> bool) (s : cst) (m : cmem) (c : ascii) : ores :=
  if c_esc s then
    match step_byte ok (with_flags s true true (c_single s) (c_double s)) m c with
    | OK s m => OK (with_flags s (c_arg s) false (c_single s) (c_double s)) m
    | o => o
    end
  else if Ascii.eqb c "\" then OK (with_flags s (c_arg s) true (c_single s) (c_double s)) m
  else if Ascii.eqb c "'" && negb (c_double s) then
    OK (if c_single s then with_flags s (c_arg s) (c_esc s) false (c_double s) else with_flags s true (c_esc s) true (c_double s)) m
  else if Ascii.eqb c """" && negb (c_single s) then
    OK (if c_double s then with_flags s (c_arg s) (c_esc s) (c_single s) false else with_flags s true (c_esc s) (c_single s) true) m
  else if is_space c then
    if c_arg s then
      if c_single s || c_double s then step_byte ok s m c
      else match append_argument ok s m with OK s m => OK (with_flags s false (c_esc s) (c_single s) (c_double s)) m | o => o end
    else OK s m
  else step_byte ok (with_flags s true (c_esc s) (c_single s) (c_double s)) m c.
(** The loop is left on the first failure. *)
Fixpoint parse_loop (ok : nat -> bool) (cmd : str) (s : cst) (m : cmem) : ores :=
  match cmd with
  | [] => OK s m
  | c :: r => match step_char ok s m c with OK s m => parse_loop ok r s m | o => o end
  end.
Definition free_loc {A} (m : cmem) (b : cbuf A) : option cmem := match b_loc b with None => Some m | Some p => cfree m p end.
(** 258-262: last to first. *)
Fixpoint free_args (m : cmem) (rev_args : list carg) : option cmem :=
  match rev_args with [] => Some m | (p, _) :: r => match cfree m p with Some m => free_args m r | None => None end end.
(** What the caller gets: NULL, or an array (its block and the arguments). *)
Inductive cout := CNull (m : cmem) | CArray (block : nat) (args : list carg) (m : cmem) | CUndef.
(** 228-285. *)
Definition finish (ok : nat -> bool) (o : ores) : cout :=
  match o with
  | OUB => CUndef
  | OK s m | Failed s m =>
    let failed0 := match o with Failed _ _ => true | _ => false end in
    match (if c_arg s then append_argument ok s m else OK s m) with
    | OUB => CUndef
    | (OK s m | Failed s m) as o2 =>
      let failed := match o2 with Failed _ _ => true | _ => failed0 end in
      let '(cmdblock, m) := if failed then (None, m) else malloc ok m in
      let m2 := match cmdblock with Some _ => Some m | None => free_args m (rev (b_data (c_args s))) end in
      match m2 with
      | None => CUndef
      | Some m =>
        match free_loc m (c_args s) with
        | None => CUndef
        | Some m =>
          match free_loc m (c_buf s) with
          | None => CUndef
          | Some m => match cmdblock with Some p => CArray p (b_data (c_args s)) m | None => CNull m end
          end
        end
      end
    end
  end.
(** 110-111, 115-133. *)
Definition cst0 : cst := mkC (mkB None 32 []) (mkB None 1024 []) false false false false.
(** 291-301 kwsysSystem_Parse_CommandForUnix on the C string [cmd]. *)
Definition parse_command (ok : nat -> bool) (cmd : str) (flags : Z) : cout :=
  if negb (flags =? 0)%Z then CNull cmem0
  else finish ok (parse_loop ok (c_str cmd) cst0 cmem0).
