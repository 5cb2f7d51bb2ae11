(** SysCpuModel.v -- how many processors there are on Linux
    (vital/kwiversys/SystemInformation.cxx 3148-3255: ExtractValueFromCpuInfoFile and
    the first part of RetreiveInformationFromCpuInfoFile).  Positions in the text are
    written as the rest of the text from there.  Simplification: numbers that do not
    fit into an int are not wrapped by atoi. *)
From Coq Require Import List ZArith Bool Ascii String.
Import ListNotations.
From Verif Require Import Base SysMemModel.
Open Scope Z_scope.
Open Scope list_scope.

Definition TAB : ascii := ascii_of_nat 9.
(** buffer.find(w, pos). *)
Fixpoint find (w s : str) : option str :=
  if is_prefix w s then Some s else match s with [] => None | _ :: r => find w r end.
(** 3148-3175: CurrentPositionInFile and the value; None: CurrentPositionInFile is
    npos and the value is empty. *)
Fixpoint extract (fuel : nat) (w s : str) : option (str * str) :=
  match fuel with
  | O => None
  | S fuel =>
      match find w s with
      | None => None
      | Some p =>
          match find (L ":") p with
          | None => None
          | Some q =>
              match find [NL] q with
              | None => None
              | Some r =>
                  let between := firstn (length p - length w - length q) (skipn (length w) p) in
                  if forallb (fun c => ascii_eqb c " " || ascii_eqb c TAB) between then
                    Some (p, if (2 <=? length q - length r)%nat then firstn (length q - length r - 2) (skipn 2 q) else skipn 2 q)
                  else extract fuel w r
              end
          end
      end
  end.
Definition extract_value (w s : str) : option (str * str) := extract (S (length s)) w s.
Definition value_or_empty (o : option (str * str)) : str := match o with Some (_, v) => v | None => [] end.
(** atoi. *)
Definition atoi (s : str) : Z :=
  let s := drop_while is_space s in
  match s with
  | c :: r => if ascii_eqb c "-" then - decimal (take_while is_digit r) else if ascii_eqb c "+" then decimal (take_while is_digit r) else decimal (take_while is_digit s)
  | [] => 0
  end.
(** 3199-3204: every position where "processor\t" begins. *)
Fixpoint count (w s : str) : Z := match s with [] => 0 | _ :: r => (if is_prefix w s then 1 else 0) + count w r end.
(** 3208-3221: the loop over the physical ids. *)
Fixpoint max_id (fuel : nat) (found : option (str * str)) (m : Z) : Z :=
  match fuel, found with
  | S fuel, Some (p, v) => let id := atoi v in max_id fuel (extract_value (L "physical id") (tl p)) (if m <? id then id else m)
  | _, _ => m
  end.
(** 3176-3255: NumberOfLogicalCPU, NumberOfPhysicalCPU, LogicalProcessorsPerPhysical;
    None: the file is empty (buffer.resize(-1) throws). *)
Definition cpu_counts (text : str) : option (Z * Z * Z) :=
  match text with
  | [] => None
  | _ =>
      let buffer := removelast text in
      let logical := count (L "processor" ++ [TAB]) buffer in
      let maxId := max_id (length buffer) (extract_value (L "physical id") buffer) (-1) in
      let cores := atoi (value_or_empty (extract_value (L "cpu cores") buffer)) in
      let physical := if 0 <? maxId then (cores * (maxId + 1)) mod 2 ^ 32
                      else atoi (value_or_empty (extract_value (L "ncpus active") buffer)) mod 2 ^ 32 in
      let physical := if physical <=? 0 then 1 else physical in
      Some (logical, physical, logical / physical)
  end.
