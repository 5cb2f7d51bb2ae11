(** SysCpuIdSpec.v -- the makers of processors, and what /proc/cpuinfo says about one
    (C144). *)
From Coq Require Import List ZArith Bool Ascii String.
Import ListNotations.
From Verif Require Import Base SysCpuSpec.
Open Scope list_scope.

(** What a processor calls its vendor, and who that is. *)
Definition vendors : list (str * str) := map (fun p => (L (fst p), L (snd p)))
  [("GenuineIntel", "Intel Corporation"); ("UMC UMC UMC ", "United Microelectronics Corp."); ("AuthenticAMD", "Advanced Micro Devices");
   ("AMD ISBETTER", "Advanced Micro Devices"); ("CyrixInstead", "Cyrix Corp., VIA Inc."); ("NexGenDriven", "NexGen Inc., Advanced Micro Devices");
   ("CentaurHauls", "IDT\Centaur, Via Inc."); ("RiseRiseRise", "Rise"); ("GenuineTMx86", "Transmeta"); ("TransmetaCPU", "Transmeta");
   ("Geode By NSC", "National Semiconductor"); ("Sun", "Sun Microelectronics"); ("IBM", "IBM"); ("Hewlett-Packard", "Hewlett-Packard"); ("Motorola", "Motorola")]%string.
(** The first value of a key; nothing if there is none. *)
Definition first_value (w : string) (ls : list line) : str := match values (L w) ls with v :: _ => v | [] => [] end.
(** The first of two keys that has a value. *)
Definition one_of (w1 w2 : string) (ls : list line) (v : str) : Prop := v <> [] /\ (first_value w1 ls = v \/ first_value w1 ls = [] /\ first_value w2 ls = v).
Definition identity_keys : list string :=
  ["cpu family"; "CPU architecture"; "vendor_id"; "stepping"; "CPU revision"; "model"; "model name"; "cache size"; "I-cache"; "D-cache"]%string.
(** A file in which those words are keys only. *)
Definition describes (ls : list line) : Prop := Forall well_formed ls /\ Forall (fun w => Forall (clear (L w)) ls) identity_keys.
