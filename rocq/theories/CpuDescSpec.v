(** CpuDescSpec.v -- runs of blanks (C147). *)
From Coq Require Import List Bool Ascii String.
Import ListNotations.
From Verif Require Import Base SysCpuSpec.
Open Scope list_scope.

(** [t] is [s] with every run of blanks written as one blank. *)
Inductive single : str -> str -> Prop :=
| SNil : single [] []
| SChar c s t : c <> " "%char -> single s t -> single (c :: s) (c :: t)
| SRun n s t : (match s with c :: _ => c <> " "%char | [] => True end) -> single s t -> single (repeat " "%char (S n) ++ s) (" "%char :: t).
