(** ArgHelpModel.v -- vital/kwiversys/CommandLineArguments.cxx: the help text
    (GenerateHelp, GetHelp, SetLineLength).  [None] is undefined behaviour.
    Sizes of texts are below 2^32. *)
From Verif Require Import Base ArgModel.
Local Open Scope Z_scope.

(** std::set<String>. *)
Definition sset1 (x : str) (s : smap unit) : smap unit := sset x tt s.
Definition mapargs := smap (smap unit).
(** mp[k].insert(x) *)
Definition mp_insert (k x : str) (mp : mapargs) : mapargs :=
  sset k (sset1 x (match sfind k mp with Some s => s | None => [] end)) mp.

(** cxx 524-541: first loop. *)
Definition pass1 (mp : mapargs) (e : str * opt) : mapargs :=
  let '(n, cs) := e in
  match sfind (o_help cs) mp with
  | Some s => mp_insert n n (sset (o_help cs) (sset1 n s) mp)
  | None => mp_insert n n mp
  end.
(** cxx 542-565: second loop. *)
Definition pass2 (mp : option mapargs) (e : str * opt) : option mapargs :=
  let '(n, cs) := e in
  match mp with
  | None => None
  | Some mp =>
      match sfind (o_help cs) mp with
      | Some s =>
          let s := sset1 n s in
          let mp := sset (o_help cs) s mp in
          match sfind n mp with
          | None => None                           (* smpit == end() *)
          | Some t => Some (serase n (sset (o_help cs) (fold_left (fun s x => sset1 x s) (skeys t) s) mp))
          end
      | None => Some (mp_insert n n mp)
      end
  end.
Definition help_groups (opts : smap opt) : option mapargs :=
  fold_left pass2 opts (Some (fold_left pass1 opts [])).

(** cxx 577-583: extra room for the value in the widest column. *)
Definition room (t : argtype) : nat :=
  match t with NO_ARGUMENT => 0 | CONCAT_ARGUMENT => 3 | SPACE_ARGUMENT => 4 | EQUAL_ARGUMENT => 4 | MULTI_ARGUMENT => 0 end%nat.
(** cxx 607-614. *)
Definition suffix (t : argtype) : str :=
  match t with NO_ARGUMENT => [] | CONCAT_ARGUMENT => L "opt" | SPACE_ARGUMENT => L " opt" | EQUAL_ARGUMENT => L "=opt" | MULTI_ARGUMENT => L " opt opt ..." end.
(** cxx 567-590. *)
Definition type_of (opts : smap opt) (n : str) : argtype := match sfind n opts with Some o => o_type o | None => NO_ARGUMENT end.
Definition members (mp : mapargs) : list str := flat_map (fun g => skeys (snd g)) mp.
Definition maxlen_of (opts : smap opt) (mp : mapargs) : nat :=
  fold_left (fun m n => let clen := (List.length n + room (type_of opts n))%nat in if Nat.ltb m clen then clen else m) (members mp) 0%nat.

Definition spaces (n : nat) : str := repeat " "%char n.
Definition blank (c : ascii) : bool := ascii_eqb c " " || ascii_eqb c "009".
(** cxx 599-618: one option.  [argument] has 100 bytes, [buffer] 80; "%-0s" is
    undefined. *)
Definition option_line (maxlen : nat) (t : argtype) (n : str) : option str :=
  let argument := n ++ suffix t in
  if Nat.ltb 100 (List.length argument + 1) then None
  else if Nat.eqb maxlen 0 then None
  else let buffer := L "  " ++ argument ++ spaces (maxlen - List.length argument) ++ L "  " in
       if Nat.ltb 80 (List.length buffer + 1) then None else Some (L (String "010" "") ++ buffer).

(** cxx 625-635: skipping blanks; [ptr] is the text from the pointer on (with its
    NUL after it), [cc] the index.  Reading past the NUL is undefined. *)
Definition NUL : ascii := "000"%char.
Fixpoint strip (fuel : nat) (ptr : str) (cc : nat) : option str :=
  match fuel with
  | O => None
  | S f =>
      match nth_error (ptr ++ [NUL]) cc with
      | None => None
      | Some c =>
          if ascii_eqb c NUL then Some ptr
          else match ptr with
               | d :: r => if blank d then strip f r (S cc) else strip f ptr (S cc)
               | [] => strip f ptr (S cc)
               end
      end
  end.
(** cxx 643-657: where to break; [w] = LineLength - maxlen (size_t). *)
Fixpoint back (ptr : str) (cc : nat) : nat :=
  match cc with
  | O => O
  | S c => if blank (nth cc ptr NUL) then cc else back ptr c
  end.
Definition break (w : Z) (ptr : str) : option nat :=
  let len := List.length ptr in
  if Z.of_nat len <=? w then Some len
  else if w =? 0 then None
  else let w := Z.to_nat w in
       let cc := back ptr (w - 1) in
       Some (if Nat.eqb cc 0 then w else cc).
(** cxx 622-664: the lines of one help text. *)
Fixpoint help_pieces (fuel : nat) (w : Z) (ptr : str) : option (list str) :=
  match fuel with
  | O => None
  | S f =>
      match ptr with
      | [] => Some []
      | _ =>
          match strip (S (S (List.length ptr))) ptr 0 with
          | None => None
          | Some ptr =>
              match break w ptr with
              | None => None
              | Some skip => match help_pieces f w (skipn skip ptr) with
                             | None => None
                             | Some l => Some (firstn skip ptr :: l)
                             end
              end
          end
      end
  end.
Definition nl : str := L (String "010" "").
(** The first line follows the option, the others are indented by [maxlen]. *)
Definition show_pieces (maxlen : nat) (l : list str) : str :=
  match l with
  | [] => []
  | x :: r => x ++ nl ++ flat_map (fun y => spaces maxlen ++ y ++ nl) r
  end.
Fixpoint all_some {A} (l : list (option A)) : option (list A) :=
  match l with
  | [] => Some []
  | Some x :: r => match all_some r with Some r => Some (x :: r) | None => None end
  | None :: _ => None
  end.
(** cxx 515-678: GenerateHelp. *)
Definition size_t (z : Z) : Z := z mod 2 ^ 64.
Definition group_text (opts : smap opt) (linelength : Z) (maxlen : nat) (g : str * smap unit) : option str :=
  match all_some (map (fun n => option_line maxlen (type_of opts n) n) (skeys (snd g))) with
  | None => None
  | Some lines =>
      let help := match sfind (fst g) opts with Some o => o_help o | None => [] end in
      match help_pieces (S (List.length help)) (size_t (linelength - Z.of_nat (maxlen + 4))) help with
      | None => None
      | Some ps => Some (List.concat lines ++ show_pieces (maxlen + 4) ps)
      end
  end.
Definition generate_help (opts : smap opt) (linelength : Z) : option str :=
  match help_groups opts with
  | None => None
  | Some mp =>
      let maxlen := maxlen_of opts mp in
      match all_some (map (group_text opts linelength maxlen) mp) with
      | None => None
      | Some l => Some (List.concat l)
      end
  end.
(** cxx 495-503: SetLineLength. *)
Definition set_line_length (old ll : Z) : Z := if (ll <? 9) || (1000 <? ll) then old else ll.
(** cxx 108: the length of a new parser; then any calls of SetLineLength. *)
Definition default_line_length : Z := 80.
Definition line_length_after (calls : list Z) : Z := fold_left set_line_length calls default_line_length.
(** cxx 464-492: GetHelp(arg); the outer [None] is a loop that does not end
    within the fuel, the inner one a null pointer. *)
Fixpoint help_end (fuel : nat) (opts : smap opt) (cs : opt) : option str :=
  match fuel with
  | O => None
  | S f => match sfind (o_help cs) opts with None => Some (o_help cs) | Some cs => help_end f opts cs end
  end.
Definition get_help (fuel : nat) (opts : smap opt) (arg : str) : option (option str) :=
  match sfind arg opts with
  | None => Some None
  | Some cs => option_map Some (help_end fuel opts cs)
  end.
