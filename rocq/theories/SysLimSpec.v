(** SysLimSpec.v -- limits of memory (C146). *)
From Coq Require Import List ZArith Bool Ascii String.
Import ListNotations.
From Verif Require Import Base SysMemModel SysMemSpec SysCpuSpec.
Open Scope Z_scope.
Open Scope list_scope.

(** The first line in which the name occurs, anywhere, is "name   number rest". *)
Definition first_with (name : str) (lines : list str) (n : Z) : Prop :=
  exists before line after, lines = before ++ line :: after /\ says name line n /\ n < 2 ^ 63 /\ Forall (fun l => ~ occurs name l) before.
(** A limit in the environment: a positive number; nothing, 0 and negative numbers do
    not limit. *)
Definition env_says (v : option str) (n : option Z) : Prop :=
  match n with Some n => 1 <= n /\ exists s, v = Some s /\ written s n | None => v = None \/ v = Some [] \/ (exists s, v = Some s /\ written s 0) \/ exists s k, v = Some ("-"%char :: s) /\ written s k end.
(** A limit of the system, in bytes; none if it is infinite or cannot be asked for. *)
Definition rlimit_says (v : option Z) (n : option Z) : Prop :=
  match n with Some n => 0 <= n < 2 ^ 63 /\ v = Some n | None => v = None \/ v = Some (2 ^ 64 - 1) end.
(** [m] is the least of [total] and the limits there are. *)
Definition least (total : Z) (limits : list (option Z)) (m : Z) : Prop :=
  (m = total \/ In (Some m) limits) /\ m <= total /\ forall l, In (Some l) limits -> m <= l.
