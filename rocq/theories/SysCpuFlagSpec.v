(** SysCpuFlagSpec.v -- the flags of a processor (C145). *)
From Coq Require Import List ZArith Bool Ascii String.
Import ListNotations.
From Verif Require Import Base SysCpuSpec SysCpuIdSpec.
Open Scope Z_scope.
Open Scope list_scope.

(** The bits of a request, and what Linux calls them. *)
Definition feature_flags : list (Z * str) := map (fun p => (fst p, L (snd p)))
  [(0, "mmx"%string); (2, "sse"%string); (3, "sse2"%string); (4, "3dnow"%string); (10, "apic"%string); (13, "cmov"%string); (14, "mtrr"%string); (18, "acpi"%string)].
(** Words with one blank between. *)
Fixpoint words (ws : list str) : str := match ws with [] => [] | [w] => w | w :: r => w ++ " "%char :: words r end.
Definition flag_words (ls : list line) (ws : list str) : Prop :=
  ws <> [] /\ Forall (fun w => ~ In " "%char w) ws /\ Forall (clear (L "flags")) ls /\ first_value "flags" ls = words ws.
(** The request asks for one of the flags. *)
Definition asked (mask : Z) (ws : list str) : Prop := exists k f, In (k, f) feature_flags /\ Z.testbit mask k = true /\ In f ws.
Definition no_caches (mask : Z) : Prop := Z.testbit mask 15 = false /\ Z.testbit mask 16 = false /\ Z.testbit mask 17 = false.
