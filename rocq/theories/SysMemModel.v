(** SysMemModel.v -- the memory of the machine on Linux
    (vital/kwiversys/SystemInformation.cxx 3874-3995: QueryLinuxMemory).  Library code:
    fgets, sscanf and fscanf with %lu (64 bit).  Simplification: /proc/meminfo has no
    NUL and is read from one state of the machine. *)
From Coq Require Import List ZArith Bool Ascii String.
Import ListNotations.
From Verif Require Import Base.
Open Scope Z_scope.
Open Scope list_scope.

Definition NL : ascii := ascii_of_nat 10.
(** TotalPhysicalMemory, AvailablePhysicalMemory, TotalVirtualMemory,
    AvailableVirtualMemory. *)
Record memory := Memory { total_physical : Z; available_physical : Z; total_virtual : Z; available_virtual : Z }.
(** All that fgets(buffer, 1024, fd) gives until the end; [acc]: the buffer, in
    reverse order, [room]: what fits into it. *)
Fixpoint fgets_all (room : nat) (acc s : str) : list str :=
  match s with
  | [] => match acc with [] => [] | _ => [rev acc] end
  | c :: s => match room with
              | S (S r) => if ascii_eqb c NL then rev (c :: acc) :: fgets_all 1023 [] s else fgets_all (S r) (c :: acc) s
              | _ => rev (c :: acc) :: fgets_all 1023 [] s
              end
  end.
(** %lu: the value and the rest. *)
Definition ulong_of (neg : bool) (n : Z) : Z := if 2 ^ 64 <=? n then 2 ^ 64 - 1 else if neg then (- n) mod 2 ^ 64 else n.
Definition decimal (l : str) : Z := fold_left (fun a c => 10 * a + (Z.of_N (code c) - 48)) l 0.
Definition scan_lu (s : str) : option (Z * str) :=
  let s := drop_while is_space s in
  let '(neg, s) := match s with c :: r => if ascii_eqb c "-" then (true, r) else if ascii_eqb c "+" then (false, r) else (false, s) | [] => (false, s) end in
  match take_while is_digit s with [] => None | ds => Some (ulong_of neg (decimal ds), drop_while is_digit s) end.
(** sscanf(buffer, "key:%lu kB", &value) == 1. *)
Definition sscanf_key (key line : str) : option Z :=
  if is_prefix key line then match scan_lu (skipn (length key) line) with Some (v, _) => Some v | None => None end else None.
(** 3927-3929. *)
Definition keys : list str := map L ["MemTotal:"; "MemFree:"; "Buffers:"; "Cached:"; "SwapTotal:"; "SwapFree:"]%string.
(** 3935-3942: the loop over i for one line; [have]: value[i] where have[i]. *)
Fixpoint one_line (ks : list str) (have : list (option Z)) (line : str) : list (option Z) :=
  match ks, have with
  | k :: ks, h :: hs => (match h with Some v => Some v | None => sscanf_key k line end) :: one_line ks hs line
  | _, _ => []
  end.
(** 3920-3958: the format since 2.6; unsigned long sums. *)
Definition new_format (text : str) (old : memory) : bool * memory :=
  match fold_left (one_line keys) (fgets_all 1023 [] text) (repeat None 6) with
  | [Some t; Some f; Some b; Some c; Some st; Some sf] => (true, Memory (t / 1024) ((f + b + c) mod 2 ^ 64 / 1024) (st / 1024) (sf / 1024))
  | _ => (false, old)
  end.
(** [n] times %lu, blanks between. *)
Fixpoint scan_many (n : nat) (s : str) : list Z * str :=
  match n with
  | O => ([], s)
  | S n => match scan_lu s with None => ([], s) | Some (v, s) => let '(l, s) := scan_many n s in (v :: l, s) end
  end.
(** 3960-3992: the format before 2.6. *)
Definition old_format (text : str) (old : memory) : bool * memory :=
  match fgets_all 1023 [] text with
  | [] => (false, old)
  | first :: _ =>
      let s := skipn (length first) text in
      if is_prefix (L "Mem:") s then
        match scan_many 6 (skipn 4 s) with
        | ([tp; _; ap; _; buffers; cached], s) =>
            let s := drop_while is_space s in
            if is_prefix (L "Swap:") s then
              match scan_many 3 (skipn 5 s) with
              | ([tv; _; av], _) => (true, Memory (tp / 1024 / 1024) ((ap + buffers + cached) mod 2 ^ 64 / 1024 / 1024) (tv / 1024 / 1024) (av / 1024 / 1024))
              | _ => (false, old)
              end
            else (false, old)
        | _ => (false, old)
        end
      else (false, old)
  end.
(** 3874-3995: [release]: of uname, if it works; [meminfo]: the text of
    /proc/meminfo, if it can be opened. *)
Definition digit_of (o : option ascii) : Z := match o with Some c => if is_digit c then Z.of_N (code c) - 48 else 0 | None => 0 end.
Definition query_memory (release meminfo : option str) (old : memory) : bool * memory :=
  match release with
  | None => (false, old)
  | Some r =>
      let '(major, minor) := if (3 <=? length r)%nat then (digit_of (nth_error r 0), digit_of (nth_error r 2)) else (0, 0) in
      match meminfo with
      | None => (false, old)
      | Some text => if (3 <=? major) || ((2 <=? major) && (6 <=? minor)) then new_format text old else old_format text old
      end
  end.
