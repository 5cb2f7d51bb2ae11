(** ArgSpec.v -- what a command line means (documentation of
    CommandLineArguments.hxx.in 28-67), and what is to be done about it. *)
From Verif Require Import Base ArgModel.

(** ---- the command line as a list of statements ---- *)
Section Line.
  (** The options: which names there are, and how each takes its value. *)
  Variable kind : str -> option argtype.

  (** Option [n] can be meant by word [a]. *)
  Definition fits (n a : str) : Prop :=
    match kind n with
    | None => False
    | Some NO_ARGUMENT | Some SPACE_ARGUMENT => a = n
    | Some _ => exists r, a = n ++ r
    end.
  Definition known (a : str) : Prop := exists n, fits n a.
  (** Option [n] is the longest that can be meant. *)
  Definition chosen (n a : str) : Prop := fits n a /\ forall m, fits m a -> List.length m <= List.length n.

  (** A statement gives values to an option, or is a word that no option fits. *)
  Inductive stmt := Given (n : str) (vals : list (option str)) | Stray (a : str).

  (** [line ws sts e]: the words [ws] are the statements [sts], each listed
      with the words from it to the end; [e] is [None] if that is all, or else the
      words starting with an option whose value is missing. *)
  Inductive line : list str -> list (list str * stmt) -> option (list str) -> Prop :=
  | line_end : line [] [] None
  | line_no a n r sts e : chosen n a -> kind n = Some NO_ARGUMENT -> line r sts e -> line (a :: r) ((a :: r, Given n [None]) :: sts) e
  | line_space a n v r sts e : chosen n a -> kind n = Some SPACE_ARGUMENT -> line r sts e -> line (a :: v :: r) ((a :: v :: r, Given n [Some v]) :: sts) e
  | line_space_bad a n : chosen n a -> kind n = Some SPACE_ARGUMENT -> line [a] [] (Some [a])
  | line_equal a n v r sts e : chosen n a -> kind n = Some EQUAL_ARGUMENT -> a = n ++ "="%char :: v -> line r sts e -> line (a :: r) ((a :: r, Given n [Some v]) :: sts) e
  | line_equal_bad a n r : chosen n a -> kind n = Some EQUAL_ARGUMENT -> (forall v, a <> n ++ "="%char :: v) -> line (a :: r) [] (Some (a :: r))
  | line_concat a n v r sts e : chosen n a -> kind n = Some CONCAT_ARGUMENT -> a = n ++ v -> line r sts e -> line (a :: r) ((a :: r, Given n [Some v]) :: sts) e
  | line_multi a n vs r sts e : chosen n a -> kind n = Some MULTI_ARGUMENT -> (forall v, In v vs -> ~ known v) ->
      match r with [] => True | b :: _ => known b end -> line r sts e -> line (a :: vs ++ r) ((a :: vs ++ r, Given n (map Some vs)) :: sts) e
  | line_stray a r sts e : ~ known a -> line r sts e -> line (a :: r) ((a :: r, Stray a) :: sts) e.
End Line.

(** ---- obeying the statements ---- *)
Section Follow.
  Context {D : Type} (strtod : str -> D) (answer : list call -> call -> bool).
  Definition yes_words : list str := [L "1"; L "ON"; L "on"; L "On"; L "TRUE"; L "true"; L "True"; L "yes"; L "Yes"; L "YES"].
  (** A variable given a value: converted to its type; vectors grow.  A char*
      variable must be null or own its block. *)
  Definition is_yes (t : str) : bool := if in_dec str_dec t yes_words then true else false.
  Definition assign (v : var D) (text : str) : option (var D) :=
    match v with
    | VInt _ => Some (VInt (to_int (strtol10 text)))
    | VBool _ => Some (VBool (is_yes text))
    | VDouble _ => Some (VDouble (strtod text))
    | VCstr COther => None
    | VCstr _ => Some (VCstr (CNew text))
    | VStr _ => Some (VStr text)
    | VVInt l => Some (VVInt (l ++ [to_int (strtol10 text)]))
    | VVBool l => Some (VVBool (l ++ [is_yes text]))
    | VVDouble l => Some (VVDouble (l ++ [strtod text]))
    | VVCstr l => Some (VVCstr (l ++ [text]))
    | VVStr l => Some (VVStr (l ++ [text]))
    end.
  (** Options without a value are worth "1". *)
  Definition shown (v : option str) : str := match v with Some t => t | None => L "1" end.
  Inductive gave := Gave (w : world D) | Refused (w : world D) | Undefined.
  (** Giving a value to an option: ask its callback, then set its variable. *)
  Definition store (o : opt) (v : option str) (w : world D) : gave :=
    match o_var o with
    | None => Gave w
    | Some x => match assign (w_vars w x) (shown v) with Some v' => Gave (set_var w x v') | None => Undefined end
    end.
  Definition give (o : opt) (v : option str) (w : world D) : gave :=
    match o_cb o with
    | None => store o v w
    | Some f =>
        let c := CB f (o_data o) (o_text o) v in
        let w' := World (w_calls w ++ [c]) (w_vars w) in
        if answer (w_calls w) c then store o v w' else Refused w'
    end.
  Fixpoint give_all (o : opt) (vs : list (option str)) (w : world D) : gave :=
    match vs with
    | [] => Gave w
    | v :: r => match give o v w with Gave w' => give_all o r w' | x => x end
    end.

  (** The statements are obeyed in order until one is refused.  The result: the
      value of Parse(), the words left, the world and the unused words.  A
      statement refused is left with all after it; when all went well the words
      after the FIRST WORD of the last statement are left ([at]). *)
  Fixpoint follow (p : cla) (sts : list (list str * stmt)) (e : option (list str)) (at_ : list str) (w : world D) (u : list str)
    : option (bool * list str * world D * list str) :=
    match sts with
    | [] => match e with None => Some (true, tl at_, w, u) | Some rest => Some (false, rest, w, u) end
    | (here, Given n vs) :: r =>
        match sfind n (p_opts p) with
        | None => None
        | Some o => match give_all o vs w with
                    | Gave w' => follow p r e here w' u
                    | Refused w' => Some (false, here, w', u)
                    | Undefined => None
                    end
        end
    | (here, Stray a) :: r =>
        match p_unknown p with
        | Some f =>
            let c := UNK f (p_client p) a in
            let w' := World (w_calls w ++ [c]) (w_vars w) in
            if answer (w_calls w) c then Some (true, tl here, w', u) else Some (false, here, w', u)
        | None => if p_store p then follow p r e here w (u ++ [a]) else Some (false, here, w, u)
        end
    end.
End Follow.
Arguments gave : clear implicits.

(** The options of an object. *)
Definition kinds (p : cla) (n : str) : option argtype := option_map o_type (sfind n (p_opts p)).
(** An object made with the public functions. *)
Inductive made : cla -> Prop :=
| made_new : made new_cla
| made_init p a0 av : made p -> made (initialize p a0 av)
| made_arg p a : made p -> made (process_argument p a)
| made_callback p a t f d h : made p -> made (add_callback p a t f d h)
| made_argument p a t vt x h : made p -> vt <> NO_VARIABLE_TYPE -> made (add_argument p a t vt x h)
| made_unknown p f d : made p -> made (Cla (p_argv0 p) (p_argv p) (p_opts p) f d (p_store p) (p_last p) (p_unused p))
| made_store p b : made p -> made (Cla (p_argv0 p) (p_argv p) (p_opts p) (p_unknown p) (p_client p) b (p_last p) (p_unused p))
| made_parse {D} p strtod answer w b (s : st D) : made p -> parse strtod answer p w = Ret b s -> made (after p s).
(** Every registered variable has the type it was registered with. *)
Definition has_type {D} (vt : vartype) (v : var D) : Prop :=
  match vt, v with
  | INT_TYPE, VInt _ | BOOL_TYPE, VBool _ | DOUBLE_TYPE, VDouble _ | STRING_TYPE, VCstr _ | STL_STRING_TYPE, VStr _
  | VECTOR_INT_TYPE, VVInt _ | VECTOR_BOOL_TYPE, VVBool _ | VECTOR_DOUBLE_TYPE, VVDouble _ | VECTOR_STRING_TYPE, VVCstr _
  | VECTOR_STL_STRING_TYPE, VVStr _ => True
  | _, _ => False
  end.
Definition typed {D} (p : cla) (w : world D) : Prop :=
  forall n o x, sfind n (p_opts p) = Some o -> o_var o = Some x -> has_type (o_vtype o) (w_vars w x).
(** char* variables are null or own their block. *)
Definition own_strings {D} (w : world D) : Prop := forall x, w_vars w x <> VCstr COther.
