(** ArgModel.v -- vital/kwiversys/CommandLineArguments.cxx (options of
    vital/tools/plugin_explorer.cxx): registering options and Parse().

    Strings come from "const char*" and hold no NUL.  The texts given to
    AddArgument / AddCallback are kept as pointers by the code; they are taken
    not to change afterwards ([o_text]).  Callbacks are functions of the calls
    made so far; they do not use the parser object and write no registered
    variable.  A char* variable is null, a block of its own from new[], or
    something else. *)
From Verif Require Import Base.
Local Open Scope Z_scope.

(** CommandLineArguments.hxx.in 75-81 ArgumentTypeEnum. *)
Inductive argtype := NO_ARGUMENT | CONCAT_ARGUMENT | SPACE_ARGUMENT | EQUAL_ARGUMENT | MULTI_ARGUMENT.
(** hxx.in 87-100 VariableTypeEnum. *)
Inductive vartype := NO_VARIABLE_TYPE | INT_TYPE | BOOL_TYPE | DOUBLE_TYPE | STRING_TYPE | STL_STRING_TYPE
  | VECTOR_INT_TYPE | VECTOR_BOOL_TYPE | VECTOR_DOUBLE_TYPE | VECTOR_STRING_TYPE | VECTOR_STL_STRING_TYPE.
(** What a char* variable holds. *)
Inductive cptr := CNull | CNew (s : str) | COther.
(** A call to user code: an option's callback (function, its CallData, the
    arguments) or the unknown-argument callback. *)
Inductive call := CB (f : nat) (data : nat) (arg : str) (value : option str) | UNK (f : nat) (data : nat) (arg : str).

(** cxx 53-62 CommandLineArgumentsCallbackStructure.  Variables are numbered. *)
Record opt := Opt { o_text : str; o_type : argtype; o_cb : option nat; o_data : nat; o_var : option nat; o_vtype : vartype; o_help : str }.

(** strtol(s, &res, 10), 64 bit long; library code. *)
Definition digit_val (c : ascii) : Z := Z.of_N (code c) - 48.
Definition strtol10 (s : str) : Z :=
  let s := drop_while is_space s in
  let '(neg, s) := match s with
                   | c :: r => if ascii_eqb c "-" then (true, r) else if ascii_eqb c "+" then (false, r) else (false, s)
                   | [] => (false, s)
                   end in
  let n := fold_left (fun a c => 10 * a + digit_val c) (take_while is_digit s) 0 in
  let z := if neg then - n else n in
  Z.max (- 2 ^ 63) (Z.min (2 ^ 63 - 1) z).
(** static_cast<int> of a long (two's complement, as every compiler here). *)
Definition to_int (z : Z) : Z := (z + 2 ^ 31) mod 2 ^ 32 - 2 ^ 31.
(** cxx 656-671, 718-731: the texts that mean true. *)
Definition to_bool (value : str) : bool :=
  str_eqb value (L "1") || str_eqb value (L "ON") || str_eqb value (L "on") || str_eqb value (L "On") ||
  str_eqb value (L "TRUE") || str_eqb value (L "true") || str_eqb value (L "True") ||
  str_eqb value (L "yes") || str_eqb value (L "Yes") || str_eqb value (L "YES").

Section Args.
  (** strtod (library code) and what callbacks answer. *)
  Context {D : Type} (strtod : str -> D) (answer : list call -> call -> bool).

  Inductive var := VInt (z : Z) | VBool (b : bool) | VDouble (d : D) | VCstr (p : cptr) | VStr (s : str)
    | VVInt (l : list Z) | VVBool (l : list bool) | VVDouble (l : list D) | VVCstr (l : list str) | VVStr (l : list str).
  (** The calls made so far and the registered variables. *)
  Record world := World { w_calls : list call; w_vars : nat -> var }.
  Definition set_var (w : world) (x : nat) (v : var) : world :=
    World (w_calls w) (fun y => if Nat.eqb y x then v else w_vars w y).

  (** The object.  cxx 72-99, 112-118. *)
  Record cla := Cla { p_argv0 : str; p_argv : list str; p_opts : smap opt; p_unknown : option nat; p_client : nat; p_store : bool;
                      p_last : Z; p_unused : list str }.
  Definition new_cla : cla := Cla [] [] [] None 0%nat false 0 [].
  (** cxx 127-138, 147-151: Initialize(argc, argv), argc >= 1. *)
  Definition initialize (p : cla) (argv0 : str) (argv : list str) : cla :=
    Cla argv0 argv (p_opts p) (p_unknown p) (p_client p) (p_store p) 0 (p_unused p).
  (** cxx 154-157: ProcessArgument (after Initialize()). *)
  Definition process_argument (p : cla) (arg : str) : cla :=
    Cla (p_argv0 p) (p_argv p ++ [arg]) (p_opts p) (p_unknown p) (p_client p) (p_store p) (p_last p) (p_unused p).
  Definition set_opts (p : cla) (o : smap opt) : cla :=
    Cla (p_argv0 p) (p_argv p) o (p_unknown p) (p_client p) (p_store p) (p_last p) (p_unused p).
  (** cxx 388-403 (the help text is in ArgHelpModel.v). *)
  Definition add_callback (p : cla) (argument : str) (type : argtype) (callback : nat) (data : nat) (help : str) : cla :=
    set_opts p (sset argument (Opt argument type (Some callback) data None NO_VARIABLE_TYPE help) (p_opts p)).
  (** cxx 406-421, 424-455. *)
  Definition add_argument (p : cla) (argument : str) (type : argtype) (vtype : vartype) (variable : option nat) (help : str) : cla :=
    set_opts p (sset argument (Opt argument type None 0%nat variable vtype help) (p_opts p)).

  (** cxx 655-764: one variable; [None]: undefined behaviour (a variable of
      another type, or delete[] of what did not come from new[]). *)
  Definition populate_variable (vt : vartype) (v : var) (value : str) : option var :=
    match vt, v with
    | INT_TYPE, VInt _ => Some (VInt (to_int (strtol10 value)))
    | DOUBLE_TYPE, VDouble _ => Some (VDouble (strtod value))
    | STRING_TYPE, VCstr CNull => Some (VCstr (CNew value))
    | STRING_TYPE, VCstr (CNew _) => Some (VCstr (CNew value))
    | STL_STRING_TYPE, VStr _ => Some (VStr value)
    | BOOL_TYPE, VBool _ => Some (VBool (if to_bool value then true else false))
    | VECTOR_BOOL_TYPE, VVBool l => Some (VVBool (l ++ [if to_bool value then true else false]))
    | VECTOR_INT_TYPE, VVInt l => Some (VVInt (l ++ [to_int (strtol10 value)]))
    | VECTOR_DOUBLE_TYPE, VVDouble l => Some (VVDouble (l ++ [strtod value]))
    | VECTOR_STRING_TYPE, VVCstr l => Some (VVCstr (l ++ [value]))
    | VECTOR_STL_STRING_TYPE, VVStr l => Some (VVStr (l ++ [value]))
    | _, _ => None
    end.
  (** LastArgument -- (size_t). *)
  Definition decr (last : Z) : Z := (last - 1) mod 2 ^ 64.
  (** What Parse works on. *)
  Record st := St { s_last : Z; s_unused : list str; s_w : world }.
  Inductive pop := Good (s : st) | Bad (s : st) | Ugly.
  (** cxx 767-834: PopulateVariable(cs, value). *)
  Definition populate (cs : opt) (value : option str) (s : st) : pop :=
    let '(ok, s) := match o_cb cs with
                    | Some f =>
                        let c := CB f (o_data cs) (o_text cs) value in
                        (answer (w_calls (s_w s)) c, St (s_last s) (s_unused s) (World (w_calls (s_w s) ++ [c]) (w_vars (s_w s))))
                    | None => (true, s)
                    end in
    if negb ok then Bad (St (decr (s_last s)) (s_unused s) (s_w s))
    else match o_var cs with
         | None => Good s
         | Some x =>
             let text := match value with Some v => v | None => L "1" end in
             match o_vtype cs with
             | NO_VARIABLE_TYPE => Bad (St (decr (s_last s)) (s_unused s) (s_w s))
             | vt => match populate_variable vt (w_vars (s_w s) x) text with
                     | None => Ugly
                     | Some v => Good (St (s_last s) (s_unused s) (set_var (s_w s) x v))
                     end
             end
         end.

  Section Parse.
    Variable p : cla.
    Let opts := p_opts p.
    Let argv := p_argv p.
    (** cxx 160-190: GetMatchedArguments, in the order of the map. *)
    Definition matches1 (cs : opt) (parg arg : str) : bool :=
      match o_type cs with
      | NO_ARGUMENT | SPACE_ARGUMENT => str_eqb arg parg
      | _ => is_prefix parg arg
      end.
    Definition get_matched (arg : str) : list str :=
      map fst (filter (fun e => matches1 (snd e) (fst e) arg) opts).
    (** cxx 209-220: index of the longest match. *)
    Fixpoint longest (ms : list str) (kk maxidx maxlen : nat) : nat :=
      match ms with
      | [] => maxidx
      | m :: r => if Nat.ltb maxlen (List.length m) then longest r (S kk) kk (List.length m) else longest r (S kk) maxidx maxlen
      end.

    (** cxx 266-288: the loop of MULTI_ARGUMENT. *)
    Inductive mout := MDone (cc : nat) (s : st) | MFail (s : st) | MUgly | MFuel.
    Fixpoint multi (fuel : nat) (cs : opt) (cc : nat) (s : st) : mout :=
      match fuel with
      | O => MFuel
      | S f =>
          match nth_error argv cc with
          | None => MDone cc s
          | Some marg =>
              match get_matched marg with
              | _ :: _ => MDone cc s
              | [] => match populate cs (Some marg) s with
                      | Good s => multi f cs (S cc) s
                      | Bad s => MFail s
                      | Ugly => MUgly
                      end
              end
          end
      end.

    Inductive out := Ret (b : bool) (s : st) | Undef | Aborted | NoFuel.
    Definition fail (s : st) : out := Ret false (St (decr (s_last s)) (s_unused s) (s_w s)).
    (** cxx 193-333: the loop of Parse() from index [cc]. *)
    Fixpoint parse_from (fuel cc : nat) (s : st) : out :=
      match fuel with
      | O => NoFuel
      | S f =>
          match nth_error argv cc with
          | None => Ret true s
          | Some arg =>
              let s := St (Z.of_nat cc) (s_unused s) (s_w s) in
              match get_matched arg with
              | [] =>
                  (* 303-329 *)
                  match p_unknown p with
                  | Some fn =>
                      let c := UNK fn (p_client p) arg in
                      let s' := St (s_last s) (s_unused s) (World (w_calls (s_w s) ++ [c]) (w_vars (s_w s))) in
                      if answer (w_calls (s_w s)) c then Ret true s' else fail s'
                  | None =>
                      if p_store p then parse_from f (S cc) (St (s_last s) (s_unused s ++ [arg]) (s_w s))
                      else fail s
                  end
              | ms =>
                  match nth_error ms (longest ms 0 0 0) with
                  | None => Undef
                  | Some sarg =>
                      match sfind sarg opts with
                      | None => Undef
                      | Some cs =>
                          if negb (str_eqb (o_text cs) sarg) then Aborted
                          else
                            match o_type cs with
                            | NO_ARGUMENT =>
                                match populate cs None s with
                                | Good s => parse_from f (S cc) s
                                | Bad s => Ret false s
                                | Ugly => Undef
                                end
                            | SPACE_ARGUMENT =>
                                if Nat.eqb cc (List.length argv - 1) then fail s
                                else match nth_error argv (S cc) with
                                     | None => Undef
                                     | Some v => match populate cs (Some v) s with
                                                 | Good s => parse_from f (S (S cc)) s
                                                 | Bad s => Ret false s
                                                 | Ugly => Undef
                                                 end
                                     end
                            | EQUAL_ARGUMENT =>
                                if Nat.eqb (List.length arg) (List.length sarg) || negb (ascii_eqb (nth (List.length sarg) arg "0"%char) "=") then fail s
                                else match populate cs (Some (skipn (List.length sarg + 1) arg)) s with
                                     | Good s => parse_from f (S cc) s
                                     | Bad s => Ret false s
                                     | Ugly => Undef
                                     end
                            | CONCAT_ARGUMENT =>
                                match populate cs (Some (skipn (List.length sarg) arg)) s with
                                | Good s => parse_from f (S cc) s
                                | Bad s => Ret false s
                                | Ugly => Undef
                                end
                            | MULTI_ARGUMENT =>
                                match multi (S (List.length argv)) cs (S cc) s with
                                | MDone cc s => if negb (Nat.eqb cc (List.length argv)) then parse_from f (S (cc - 1)) s else parse_from f (S cc) s
                                | MFail s => Ret false s
                                | MUgly => Undef
                                | MFuel => NoFuel
                                end
                            end
                      end
                  end
              end
          end
      end.
    (** cxx 193-333. *)
    Definition parse (w : world) : out :=
      let unused := if p_store p then [] else p_unused p in
      parse_from (S (List.length argv)) 0%nat (St (p_last p) unused w).
  End Parse.
  Definition after (p : cla) (s : st) : cla :=
    Cla (p_argv0 p) (p_argv p) (p_opts p) (p_unknown p) (p_client p) (p_store p) (s_last s) (s_unused s).

  (** cxx 336-358: GetRemainingArguments.  [args] is the array of [size]
      pointers; a write outside is undefined ([None]). *)
  Definition array_put (a : list (option str)) (i : nat) (x : str) : option (list (option str)) :=
    if Nat.ltb i (List.length a) then Some (lupd a i (Some x)) else None.
  Fixpoint copy_args (a : list (option str)) (cnt : nat) (l : list str) : option (list (option str) * nat) :=
    match l with
    | [] => Some (a, cnt)
    | x :: r => match array_put a cnt x with None => None | Some a => copy_args a (S cnt) r end
    end.
  Definition get_remaining (p : cla) : option (list (option str) * nat) :=
    let size := Z.to_nat ((Z.of_nat (List.length (p_argv p)) - p_last p + 1) mod 2 ^ 64) in
    match array_put (repeat None size) 0 (p_argv0 p) with
    | None => None
    | Some a => copy_args a 1 (skipn (Z.to_nat ((p_last p + 1) mod 2 ^ 64)) (p_argv p))
    end.
  (** cxx 361-384: GetUnusedArguments. *)
  Definition get_unused (p : cla) : option (list (option str) * nat) :=
    match array_put (repeat None (List.length (p_unused p) + 1)) 0 (p_argv0 p) with
    | None => None
    | Some a => copy_args a 1 (p_unused p)
    end.
  (** cxx 509-512: GetLastArgument (unsigned int). *)
  Definition get_last (p : cla) : Z := (p_last p + 1) mod 2 ^ 64 mod 2 ^ 32.
End Args.
Arguments var : clear implicits. Arguments world : clear implicits. Arguments st : clear implicits.
Arguments out : clear implicits. Arguments pop : clear implicits. Arguments mout : clear implicits.
