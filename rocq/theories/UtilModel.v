(** UtilModel.v -- interval timers (vital/util/wall_timer.h.in, cpu_timer.h.in,
    no-cpu_timer.h.in, timer.h) and the paths of the program
    (vital/util/get_paths.cxx, whereami.c, Linux branch). *)
From Coq Require Import List Bool Arith Ascii ZArith.
Import ListNotations.
From Verif Require Import Base RegexModel.

(** ---- timers; clock readings are ticks since the clock's epoch ---- *)
(** wall_timer.h.in 121-122 (time points start at the epoch), cpu_timer.h.in
    61-64, 124-125; timer.h 54-56. *)
Record timer := mkTimer { tm_active : bool; tm_start : Z; tm_end : Z }.
Definition timer0 : timer := mkTimer false 0 0.
Inductive tmop := Start (now : Z) | Stop (now : Z).
(** wall_timer.h.in 74-91, cpu_timer.h.in 79-96. *)
Definition tm_step (t : timer) (o : tmop) : timer :=
  match o with
  | Start now => mkTimer true now (tm_end t)
  | Stop now => mkTimer false (tm_start t) now
  end.
Definition tm_run (ops : list tmop) : timer := fold_left tm_step ops timer0.
(** wall_timer.h.in 102-117, cpu_timer.h.in 107-120: in ticks; the code divides
    by the number of ticks in a second.  The difference is taken in 64 bits and
    assumed to fit. *)
Definition tm_elapsed (t : timer) (now : Z) : Z := if tm_active t then (now - tm_start t)%Z else (tm_end t - tm_start t)%Z.
(** timer.h 137-175 scoped_timer: what is printed when it goes away. [show] is
    operator<< for double applied to seconds. *)
Definition scoped_text (show : Z -> str) (title : str) (made gone1 gone2 : Z) : str :=
  (match title with [] => [] | _ => title ++ L " - " end) ++ L "elapsed time: " ++ show (tm_elapsed (tm_run [Start made; Stop gone1]) gone2) ++ L " sec" ++ [ascii_of_nat 10].

(** ---- paths of the program ---- *)
(** A char array: cells that were never written hold nothing. *)
Definition cells := list (option ascii).
Definition fresh_cells : cells := repeat None 4096.
Fixpoint copy_in (dst : cells) (src : str) {struct src} : option cells :=      (* memcpy *)
  match src, dst with
  | [], _ => Some dst
  | c :: s, _ :: d => option_map (cons (Some c)) (copy_in d s)
  | _ :: _, [] => None
  end.
Definition cell_set (b : cells) (i : Z) (c : ascii) : option cells :=
  if (0 <=? i)%Z && (i <? Z.of_nat (length b))%Z then Some (lupd b (Z.to_nat i) (Some c)) else None.
(** std::string( const char* ): up to the first NUL; reading a cell that was
    never written, or past the array, is undefined. *)
Fixpoint read_c (b : cells) : option str :=
  match b with
  | Some c :: r => if Ascii.eqb c NUL then Some [] else option_map (cons c) (read_c r)
  | _ => None
  end.
(** whereami.c 186-195, 305-314: the last '/' of out[0..length). *)
Fixpoint last_slash (i : nat) (b : cells) (found : Z) : Z :=
  match b with
  | [] => found
  | Some "/"%char :: r => last_slash (S i) r (Z.of_nat i)
  | _ :: r => last_slash (S i) r found
  end.
Definition PATH_MAX : nat := 4096.
(** whereami.c 163-203 and 222-328: [resolved] is what realpath gave (NULL if it,
    or finding the module in /proc/self/maps, failed); capacity 4096;
    *dirname_length starts as [len0].  None: undefined. *)
Definition wai_path (resolved : option str) (out : cells) (len0 : Z) : option (cells * Z) :=
  match resolved with
  | None => Some (out, len0)
  | Some r =>
    if length r <=? 4096 then
      match copy_in out r with
      | Some out' => Some (out', last_slash 0 (firstn (length r) out') len0)
      | None => None
      end
    else Some (out, len0)
  end.
(** get_paths.cxx 50-66: [path] is the static string; the result is its new
    value and what is returned. *)
Definition get_executable_path (path : str) (resolved : option str) : option str :=
  match path with
  | _ :: _ => Some path
  | [] =>
    match wai_path resolved fresh_cells 0 with
    | None => None
    | Some (ppath, len) => match cell_set ppath len NUL with None => None | Some ppath => read_c ppath end
    end
  end.
(** get_paths.cxx 70-89: the NUL is written into the static string, which is
    empty here, at [len]: only writing a NUL at its end is defined. *)
Definition get_module_path (path : str) (resolved : option str) : option str :=
  match path with
  | _ :: _ => Some path
  | [] =>
    match wai_path resolved fresh_cells 0 with
    | None => None
    | Some (ppath, len) => if (len =? Z.of_nat (length path))%Z then read_c ppath else None
    end
  end.
(** A history of calls: what realpath gives at each; what each returns. *)
Fixpoint calls (get : str -> option str -> option str) (path : str) (h : list (option str)) : option (list str) :=
  match h with
  | [] => Some []
  | r :: h => match get path r with None => None | Some p => option_map (cons p) (calls get p h) end
  end.
