(** CpuDescModel.v -- the description of the processor
    (vital/kwiversys/SystemInformation.cxx 634-664: GetCPUDescription).  What the
    functions called give is an input: the number of processors and the clock
    frequency as the stream writes them, the names. *)
From Coq Require Import List ZArith Bool Ascii String.
Import ListNotations.
From Verif Require Import Base SysCpuModel.
Open Scope list_scope.

(** 657-661: the loop: the first two blanks become one. *)
Fixpoint remove_extra (fuel : nat) (tmp : str) : str :=
  match fuel with
  | O => tmp
  | S fuel =>
      match find (L "  ") tmp with
      | None => tmp
      | Some p => remove_extra fuel (firstn (length tmp - length p) tmp ++ L " " ++ skipn 2 p)
      end
  end.
(** 634-664; the loop ends after fewer turns than there are characters. *)
Definition cpu_description (physical model_name mhz vendor name : str) : str :=
  let tmp := physical ++ L " core " ++ match model_name with [] => mhz ++ L " MHz " ++ vendor ++ L " " ++ name | _ => model_name end in
  remove_extra (length tmp) tmp.
