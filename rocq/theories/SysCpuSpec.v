(** SysCpuSpec.v -- what /proc/cpuinfo says (C143). *)
From Coq Require Import List ZArith Bool Ascii String.
Import ListNotations.
From Verif Require Import Base SysMemModel SysCpuModel.
Open Scope list_scope.

(** A line: "key<tabs>: value", or empty. *)
Inductive line := Empty | Entry (key tabs value : str).
Definition text1 (l : line) : str := match l with Empty => [] | Entry k t v => k ++ t ++ L ": " ++ v end.
(** The file: the lines, then one that is empty. *)
Definition cpuinfo (ls : list line) : str := concat (map (fun l => text1 l ++ [NL]) ls) ++ [NL].
Definition occurs (w s : str) : Prop := exists a b, s = a ++ w ++ b.
Definition well_formed (l : line) : Prop :=
  match l with Empty => True | Entry k t v => ~ In NL k /\ ~ In ":"%char k /\ Forall (fun c => c = " "%char \/ c = TAB) t /\ ~ In NL v end.
(** A word is found in a line only where a key begins with it: in the key itself, or in
    one that goes on with more than blanks. *)
Definition clear (w : str) (l : line) : Prop :=
  ~ occurs w (text1 l) \/
  ~ occurs w (tl (text1 l)) /\ exists k t v, l = Entry k t v /\ (k = w \/ exists c x d, k = w ++ c ++ x :: d /\ x <> " "%char /\ x <> TAB).
Definition values (w : str) (ls : list line) : list str := flat_map (fun l => match l with Entry k _ v => if str_eqb k w then [v] else [] | Empty => [] end) ls.
(** The lines of the processors. *)
Definition processors (ls : list line) : nat := length (filter (fun l => is_prefix (L "processor" ++ [TAB]) (text1 l)) ls).
