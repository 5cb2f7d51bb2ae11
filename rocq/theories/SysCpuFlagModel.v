(** SysCpuFlagModel.v -- what the processor can do, on Linux
    (vital/kwiversys/SystemInformation.cxx 3310-3320 and 3347-3394: the end of
    RetreiveInformationFromCpuInfoFile; 1987-2058: DoesCPUSupportFeature; 1567: all
    features are 0 at first). *)
From Coq Require Import List ZArith Bool Ascii String.
Import ListNotations.
From Verif Require Import Base SysMemModel SysCpuModel SysCpuIdModel.
Open Scope Z_scope.
Open Scope list_scope.

(** 3353: cpuflags.find(" flag ") after " " + cpuflags + " ". *)
Definition has (flag : string) (cpuflags : str) : bool :=
  match find (L " " ++ L flag ++ L " ") (L " " ++ cpuflags ++ L " ") with Some _ => true | None => false end.
(** 3347-3394 and 1987-2058, for a SystemInformation whose RunCPUCheck has run once.
    What is never set on Linux is left out: MMX+, SSE FP, SSE MMX, 3DNow+, IA64, MP,
    serial number, thermal monitor, diode, frequency, voltage. *)
Definition supports (text : str) (mask : Z) : option bool :=
  match text with
  | [] => None
  | _ =>
      let buffer := removelast text in
      let cpurev := match value "stepping" buffer with [] => value "CPU revision" buffer | s => s end in
      let cpuflags := value "flags" buffer in
      let set flag := match cpurev with [] => false | _ => has flag cpuflags end in
      let l1 := cache_of (value "cache size" buffer) + cache_of (value "I-cache" buffer) + cache_of (value "D-cache" buffer) in
      let bit k := Z.testbit mask k in
      Some ((bit 0 && set "mmx"%string) || (bit 2 && set "sse"%string) || (bit 3 && set "sse2"%string) || (bit 4 && set "3dnow"%string) ||
            (bit 10 && set "apic"%string) || (bit 13 && set "cmov"%string) || (bit 14 && set "mtrr"%string) ||
            (bit 15 && negb (l1 =? -1)) || (bit 16 && negb (0 =? -1)) || (bit 17 && negb (0 =? -1)) || (bit 18 && set "acpi"%string))
  end.
