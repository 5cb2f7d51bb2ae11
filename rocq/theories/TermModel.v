(** TermModel.v -- coloured output (vital/kwiversys/Terminal.c 54-330) and the width
    of the terminal (vital/kwiversys/SystemTools.cxx 4724-4755), for a system where
    isatty works and there is no console window (not Windows). *)
From Coq Require Import List ZArith NArith Bool Ascii String.
Import ListNotations.
From Verif Require Import Base.
Open Scope list_scope.

(** What the process sees: the variables EMACS, TERM and COLUMNS, isatty of the
    stream, isatty(1), and the columns and rows ioctl(1, TIOCGWINSZ) answers. *)
Record env := Env { emacs : option str; term : option str; columns : option str; tty : bool; tty1 : bool; winsize : option (Z * Z) }.
Definition ESC : ascii := ascii_of_nat 27.
(** 203-222: the escape sequences (those that are used). *)
Definition vt (code : string) : str := ESC :: L "[" ++ L code ++ L "m".
(** 124-176. *)
Definition vt100_names : list str := map L
  ["Eterm"; "ansi"; "color-xterm"; "con132x25"; "con132x30"; "con132x43"; "con132x60"; "con80x25"; "con80x28"; "con80x30"; "con80x43";
   "con80x50"; "con80x60"; "cons25"; "console"; "cygwin"; "dtterm"; "eterm-color"; "gnome"; "gnome-256color"; "konsole"; "konsole-256color";
   "kterm"; "linux"; "msys"; "linux-c"; "mach-color"; "mlterm"; "putty"; "putty-256color"; "rxvt"; "rxvt-256color"; "rxvt-cygwin";
   "rxvt-cygwin-native"; "rxvt-unicode"; "rxvt-unicode-256color"; "screen"; "screen-256color"; "screen-256color-bce"; "screen-bce"; "screen-w";
   "screen.linux"; "vt100"; "xterm"; "xterm-16color"; "xterm-256color"; "xterm-88color"; "xterm-color"; "xterm-debian"; "xterm-termite"]%string.
(** 180-219: kwsysTerminalStreamIsVT100. *)
Definition is_vt100 (e : env) (default_vt100 : bool) : bool :=
  if match emacs e with Some (c :: _) => ascii_eqb c "t" | _ => false end then false
  else if negb default_vt100 && negb (match term e with Some t => existsb (str_eqb t) vt100_names | None => false end) then false
  else tty e.
(** 246-312: kwsysTerminalSetVT100Color: what it writes. *)
Definition set_color (color : N) : str :=
  if (color =? 0)%N then vt "0"
  else
    match N.land color 15 with
    | 0 => vt "0" | 1 => vt "30" | 2 => vt "31" | 3 => vt "32" | 4 => vt "33" | 5 => vt "34" | 6 => vt "35" | 7 => vt "36" | 8 => vt "37"
    | _ => []
    end%N ++
    match N.land color 240 with
    | 16 => vt "40" | 32 => vt "41" | 48 => vt "42" | 64 => vt "43" | 80 => vt "44" | 96 => vt "45" | 112 => vt "46" | 128 => vt "47"
    | _ => []
    end%N ++
    (if (N.land color 256 =? 0)%N then [] else vt "1").
(** 61-107: kwsysTerminal_cfprintf; [text]: what vfprintf makes of the format. *)
Definition cfprintf (e : env) (color : N) (text : str) : str :=
  let c := is_vt100 e (negb (N.land color 2048 =? 0)%N) in
  (if c then set_color color else []) ++ text ++ (if c then set_color 0 else []).

Open Scope Z_scope.
(** strtol(s, &end, 0): library code; the value and the rest from end on (the whole
    text if there is no number).  64 bit long. *)
Definition hex_val (c : ascii) : option Z :=
  if is_digit c then Some (Z.of_N (code c) - 48)
  else let l := to_lower c in if (97 <=? code l)%N && (code l <=? 102)%N then Some (Z.of_N (code l) - 87) else None.
Definition digit_in (base : Z) (c : ascii) : bool := match hex_val c with Some v => v <? base | None => false end.
Definition number (base : Z) (l : str) : Z := fold_left (fun a c => base * a + match hex_val c with Some v => v | None => 0 end) l 0.
Definition strtol0 (s0 : str) : Z * str :=
  let s := drop_while is_space s0 in
  let '(neg, s) := match s with
                   | c :: r => if ascii_eqb c "-" then (true, r) else if ascii_eqb c "+" then (false, r) else (false, s)
                   | [] => (false, s)
                   end in
  let '(base, s) := match s with
                    | z :: x :: d :: r => if ascii_eqb z "0" && ascii_eqb (to_lower x) "x" && digit_in 16 d then (16, d :: r) else if ascii_eqb z "0" then (8, s) else (10, s)
                    | z :: _ => if ascii_eqb z "0" then (8, s) else (10, s)
                    | [] => (10, s)
                    end in
  match take_while (digit_in base) s with
  | [] => (0, s0)
  | ds => let n := number base ds in
          (Z.max (- 2 ^ 63) (Z.min (2 ^ 63 - 1) (if neg then - n else n)), drop_while (digit_in base) s)
  end.
(** SystemTools.cxx 4724-4755: GetTerminalWidth. *)
Definition terminal_width (e : env) : Z :=
  let width := match winsize e with Some (col, row) => if (0 <? col) && (0 <? row) then col else -1 | None => -1 end in
  let width := if tty1 e then width else -1 in
  let width := match columns e with
               | Some (c :: r) =>
                   let '(t, rest) := strtol0 (c :: r) in
                   match rest with [] => if (0 <? t) && (t <? 1000) then t else width | _ => width end
               | _ => width
               end in
  if width <? 9 then -1 else width.
