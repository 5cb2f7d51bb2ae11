(** SysCpuIdModel.v -- which processor it is on Linux
    (vital/kwiversys/SystemInformation.cxx 3269-3345: the second part of
    RetreiveInformationFromCpuInfoFile; 2180-2199: FindManufacturer; 1859-1895:
    GetVendorID).  Not modelled: the speed, the name of the processor
    (RetrieveClassicalCPUIdentity), the features.  Simplification: no wrapping of
    int. *)
From Coq Require Import List ZArith Bool Ascii String.
Import ListNotations.
From Verif Require Import Base SysMemModel SysCpuModel.
Open Scope Z_scope.
Open Scope list_scope.

Inductive manufacturer := Intel | AMD | NSC | UMC | Cyrix | NexGen | IDT | Rise | Transmeta | Sun | IBM | Motorola | HP | UnknownManufacturer.
(** 2180-2199. *)
Definition find_manufacturer (vendor family : str) : manufacturer :=
  let is s := str_eqb vendor (L s) in
  if is "GenuineIntel"%string then Intel
  else if is "UMC UMC UMC "%string then UMC
  else if is "AuthenticAMD"%string then AMD
  else if is "AMD ISBETTER"%string then AMD
  else if is "CyrixInstead"%string then Cyrix
  else if is "NexGenDriven"%string then NexGen
  else if is "CentaurHauls"%string then IDT
  else if is "RiseRiseRise"%string then Rise
  else if is "GenuineTMx86"%string then Transmeta
  else if is "TransmetaCPU"%string then Transmeta
  else if is "Geode By NSC"%string then NSC
  else if is "Sun"%string then Sun
  else if is "IBM"%string then IBM
  else if is "Hewlett-Packard"%string then HP
  else if is "Motorola"%string then Motorola
  else if str_eqb (firstn 7 family) (L "PA-RISC") then HP
  else UnknownManufacturer.
(** 1859-1895: GetVendorID. *)
Definition vendor_id (m : manufacturer) : str :=
  L match m with
    | Intel => "Intel Corporation" | AMD => "Advanced Micro Devices" | NSC => "National Semiconductor" | Cyrix => "Cyrix Corp., VIA Inc."
    | NexGen => "NexGen Inc., Advanced Micro Devices" | IDT => "IDT\Centaur, Via Inc." | UMC => "United Microelectronics Corp." | Rise => "Rise"
    | Transmeta => "Transmeta" | Sun => "Sun Microelectronics" | IBM => "IBM" | Motorola => "Motorola" | HP => "Hewlett-Packard"
    | UnknownManufacturer => "Unknown Manufacturer"
    end%string.
(** GetVendorString, GetVendorID, GetFamilyID, GetModelID, GetSteppingCode,
    GetModelName, GetProcessorCacheSize. *)
Record identity := Identity { vendor_string : str; vendor_name : str; family_id : Z; model_id : Z; stepping : Z; model_name : str; cache_size : Z }.
Definition value (w : string) (buffer : str) : str := value_or_empty (extract_value (L w) buffer).
(** 3333-3344: one turn of the loop over the caches. *)
Definition cache_of (v : str) : Z :=
  match v with [] => 0 | _ => atoi (match find (L " KB") v with Some r => firstn (length v - length r) v | None => v end) end.
(** 3269-3345; None: the file is empty. *)
Definition cpu_identity (text : str) : option identity :=
  match text with
  | [] => None
  | _ =>
      let buffer := removelast text in
      let familyStr := match value "cpu family" buffer with [] => value "CPU architecture" buffer | s => s end in
      let vendor := value "vendor_id" buffer in
      let m := find_manufacturer vendor familyStr in
      let family := atoi familyStr in
      let family := if (family =? 0) && match m with HP => true | _ => false end then
                      if str_eqb familyStr (L "PA-RISC 1.1a") then 282 else if str_eqb familyStr (L "PA-RISC 2.0") then 512 else family
                    else family in
      let cpurev := match value "stepping" buffer with [] => value "CPU revision" buffer | s => s end in
      Some (Identity vendor (vendor_id m) family (atoi (value "model" buffer)) (atoi cpurev) (value "model name" buffer)
              (cache_of (value "cache size" buffer) + cache_of (value "I-cache" buffer) + cache_of (value "D-cache" buffer)))
  end.
