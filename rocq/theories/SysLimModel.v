(** SysLimModel.v -- how much memory there is for a process on Linux
    (vital/kwiversys/SystemInformation.cxx 924-1041: LoadLines, NameValue,
    GetFieldsFromFile, GetFieldFromFile; 3430-3550: GetHostMemoryTotal,
    GetHostMemoryAvailable, GetProcMemoryAvailable; 3561-3590: GetHostMemoryUsed;
    3613-3643: GetProcMemoryUsed).  Library code: fgets, std::istringstream >> long
    long, atoll, getrlimit64.  Simplifications: no read errors; no NUL in the files;
    atoll does not wrap. *)
From Coq Require Import List ZArith Bool Ascii String.
Import ListNotations.
From Verif Require Import Base SysMemModel SysCpuModel.
Open Scope Z_scope.
Open Scope list_scope.

(** 924-975: LoadLines; None: the file cannot be opened. *)
Definition load_lines (file : option str) : list str :=
  match file with
  | None => []
  | Some text => map (take_while (fun c => negb (ascii_eqb c NL))) (fgets_all 1023 [] text)
  end.
(** operator>>(long long): 0 without a number, the nearest value out of range. *)
Definition read_ll (s : str) : Z := Z.max (- 2 ^ 63) (Z.min (2 ^ 63 - 1) (atoi s)).
(** 979-996: NameValue; None: no line has the name. *)
Fixpoint name_value (name : str) (lines : list str) : option Z :=
  match lines with
  | [] => None
  | l :: ls => match find name l with Some p => Some (read_ll (skipn (length name) p)) | None => name_value name ls end
  end.
(** 1000-1023: GetFieldsFromFile: inl ierr, or the values; [i]: counts the names. *)
Fixpoint fields (lines : list str) (names : list str) (i : Z) : Z + list Z :=
  match names with
  | [] => inr []
  | n :: ns =>
      match name_value n lines with
      | None => inl (- (i + 2))
      | Some v => match fields lines ns (i + 1) with inl e => inl e | inr vs => inr (v :: vs) end
      end
  end.
Definition fields_from_file (file : option str) (names : list string) : Z + list Z :=
  match load_lines file with [] => inl (-1) | lines => fields lines (map L names) 0 end.
(** 3430-3452; 3613-3643. *)
Definition one_field (file : option str) (name : string) : Z := match fields_from_file file [name] with inr (v :: _) => v | _ => -1 end.
Definition host_total (meminfo : option str) : Z := one_field meminfo "MemTotal:".
Definition proc_used (status : option str) : Z := one_field status "VmRSS:".
(** 3561-3587. *)
Definition host_used (meminfo : option str) : Z :=
  match fields_from_file meminfo ["MemTotal:"; "MemFree:"]%string with inr [total; free] => total - free | inr _ => 0 | inl ierr => ierr end.
(** 3480-3492, 3509-3522: [limit]: the value of the variable, if a name is given and
    it is set. *)
Definition env_limit (limit : option str) (m : Z) : Z :=
  match limit with Some v => let l := atoi v in if 0 <? l then Z.min l m else m | None => m end.
Definition host_available (limit meminfo : option str) : Z := env_limit limit (host_total meminfo).
(** 3526-3536: rlim_cur is unsigned long; RLIM_INFINITY is the greatest; None: getrlimit fails. *)
Definition resource_limit (cur : option Z) (m : Z) : Z :=
  match cur with Some c => if c =? 2 ^ 64 - 1 then m else Z.min (Z.quot (if c <? 2 ^ 63 then c else c - 2 ^ 64) 1024) m | None => m end.
(** 3502-3550. *)
Definition proc_available (host_limit proc_limit : option str) (data as_ : option Z) (meminfo : option str) : Z :=
  resource_limit as_ (resource_limit data (env_limit proc_limit (host_available host_limit meminfo))).
