(** TermSpec.v -- what is seen on a VT100 terminal, and how a width is written (C141). *)
From Coq Require Import List ZArith NArith Bool Ascii String.
Import ListNotations.
From Verif Require Import Base TermModel.
Open Scope list_scope.

(** A terminal: what the next character looks like, and how much of an escape
    sequence has arrived. *)
Record look := Look { fg : option nat; bg : option nat; bold : bool; underline : bool; blink : bool; inverse : bool }.
Definition plain : look := Look None None false false false false.
Inductive mode := Ground | Escape | Params (done : list nat) (current : nat).
Definition sgr (a : look) (n : nat) : look :=
  match n with
  | 0 => plain
  | 1 => Look (fg a) (bg a) true (underline a) (blink a) (inverse a)
  | 4 => Look (fg a) (bg a) (bold a) true (blink a) (inverse a)
  | 5 => Look (fg a) (bg a) (bold a) (underline a) true (inverse a)
  | 7 => Look (fg a) (bg a) (bold a) (underline a) (blink a) true
  | _ => if (30 <=? n) && (n <=? 37) then Look (Some (n - 30)) (bg a) (bold a) (underline a) (blink a) (inverse a)
         else if (40 <=? n) && (n <=? 47) then Look (fg a) (Some (n - 40)) (bold a) (underline a) (blink a) (inverse a) else a
  end%nat.
(** One byte: the new state, and what is shown. *)
Definition receive (t : mode * look) (c : ascii) : (mode * look) * list (ascii * look) :=
  let '(m, a) := t in
  let n := nat_of_ascii c in
  if (n =? 27)%nat then ((Escape, a), [])
  else match m with
  | Ground => ((Ground, a), [(c, a)])
  | Escape => if (n =? 91)%nat then ((Params [] 0, a), []) else ((Ground, a), [])
  | Params d k =>
      if ((48 <=? n) && (n <=? 57))%nat then ((Params d (10 * k + (n - 48)), a), [])
      else if (n =? 59)%nat then ((Params (d ++ [k]) 0, a), [])
      else if (n =? 109)%nat then ((Ground, fold_left sgr (d ++ [k]) a), [])
      else if ((64 <=? n) && (n <=? 126))%nat then ((Ground, a), []) else ((m, a), [])
  end.
Fixpoint show (t : mode * look) (s : str) : (mode * look) * list (ascii * look) :=
  match s with [] => (t, []) | c :: s => let '(t1, o1) := receive t c in let '(t2, o2) := show t1 s in (t2, o1 ++ o2) end.

(** The look a colour specification asks for: foreground in bits 0-3 and background
    in bits 4-7 (1 black ... 8 white), bold in bit 8. *)
Definition one_of_eight (n : N) : option nat := if ((1 <=? n) && (n <=? 8))%N then Some (N.to_nat n - 1)%nat else None.
Definition wanted (color : N) : look := Look (one_of_eight (color mod 16)) (one_of_eight ((color / 16) mod 16)) (N.testbit color 8) false false false.
(** When colours are used. *)
Definition known : list str := map L
  ["ansi"; "console"; "cygwin"; "linux"; "linux-c"; "msys"; "vt100"; "kterm"; "dtterm"; "mlterm"; "mach-color"; "Eterm"; "eterm-color";
   "con132x25"; "con132x30"; "con132x43"; "con132x60"; "con80x25"; "con80x28"; "con80x30"; "con80x43"; "con80x50"; "con80x60"; "cons25";
   "gnome"; "gnome-256color"; "konsole"; "konsole-256color"; "putty"; "putty-256color";
   "rxvt"; "rxvt-256color"; "rxvt-cygwin"; "rxvt-cygwin-native"; "rxvt-unicode"; "rxvt-unicode-256color";
   "screen"; "screen-256color"; "screen-256color-bce"; "screen-bce"; "screen-w"; "screen.linux";
   "xterm"; "xterm-16color"; "xterm-256color"; "xterm-88color"; "xterm-color"; "xterm-debian"; "xterm-termite"; "color-xterm"]%string.
Definition coloured (e : env) (color : N) : Prop :=
  tty e = true /\ (forall r, emacs e <> Some ("t"%char :: r)) /\ (N.testbit color 11 = true \/ exists t, term e = Some t /\ In t known).

Open Scope Z_scope.
(** How a number is written in C: decimal, octal after 0, hexadecimal after 0x. *)
Definition value_of (c : ascii) (v : Z) : Prop :=
  let n := Z.of_nat (nat_of_ascii c) in
  48 <= n <= 57 /\ v = n - 48 \/ 97 <= n <= 102 /\ v = n - 87 \/ 65 <= n <= 70 /\ v = n - 55.
Inductive digits (base : Z) : str -> Z -> Prop :=
| DNil : digits base [] 0
| DSnoc l c n v : digits base l n -> value_of c v -> v < base -> digits base (l ++ [c]) (base * n + v).
Inductive numeral : str -> Z -> Prop :=
| Decimal c l n : c <> "0"%char -> digits 10 (c :: l) n -> numeral (c :: l) n
| Octal l n : digits 8 l n -> numeral ("0"%char :: l) n
| Hexadecimal x l n : x = "x"%char \/ x = "X"%char -> l <> [] -> digits 16 l n -> numeral ("0"%char :: x :: l) n.
(** COLUMNS: blanks, perhaps a plus, a number from 1 to 999. *)
Definition says (s : str) (n : Z) : Prop :=
  1 <= n <= 999 /\ exists b p r, s = b ++ p ++ r /\ Forall (fun c => is_space c = true) b /\ (p = [] \/ p = ["+"%char]) /\ numeral r n.
