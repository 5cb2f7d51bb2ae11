(** ProcExecSpec.v -- what starting a process must leave behind (C140). *)
From Coq Require Import List ZArith Bool.
Import ListNotations.
From Verif Require Import Base ProcExecModel.
Open Scope Z_scope.

(** The descriptors of the caller that the process takes over: the reading end given
    for stdin, the writing ends given for the outputs. *)
Definition native_in (t : target) : list Z := match t with ToNative a _ => [a] | _ => [] end.
Definition native_out (t : target) : list Z := match t with ToNative _ b => [b] | _ => [] end.
Definition natives (g : config) : list Z := native_in (t_in g) ++ native_out (t_out g) ++ native_out (t_err g).
(** They are different open descriptors; nothing has happened yet. *)
Definition usable (g : config) (s : os) : Prop :=
  NoDup (natives g) /\ (forall x, In x (natives g) -> 2 < x /\ In x (fds s)) /\ bad s = 0%nat /\ given s = [] /\ leaked s = [].
Definition ends (c : cp) : list Z := [r_out c; r_err c; r_sig c; sg c].
(** What the commands read and write: the standard input of the first, its output
    being the input of the next through a pipe, the output of the last; all errors go
    to the same place. *)
Definition in_ok (t : target) (v : Z) : Prop := match t with ToFile => 2 < v | ToParent => v = 0 | ToNative p _ => v = p | ToObject => v = -1 end.
Definition out_ok (pipes : list (Z * Z)) (parent : Z) (t : target) (r v : Z) : Prop :=
  match t with ToFile => 2 < v | ToParent => v = parent | ToNative _ p => v = p | ToObject => In (r, v) pipes end.
Fixpoint wired (pipes : list (Z * Z)) (first last err : Z) (ks : list kid) : Prop :=
  match ks with
  | [Child i o e] => i = first /\ o = last /\ e = err
  | Child i o e :: ks => i = first /\ e = err /\ exists a, In (a, o) pipes /\ wired pipes a last err ks
  | _ => False
  end.
Definition is_child (k : kid) : bool := match k with Child _ _ _ => true | _ => false end.
Definition is_one (k : signalled) : bool := match k with OneChild => true | _ => false end.
