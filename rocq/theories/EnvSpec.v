(** EnvSpec.v -- what C134 speaks of: names, values and the calls of a program. *)
From Verif Require Import Base.
(** A name a variable can have: not empty, no "=" and no NUL. *)
Definition name_ok (n : str) : Prop := n <> [] /\ ~ In "="%char n /\ ~ In "000"%char n.
Definition value_ok (v : str) : Prop := ~ In "000"%char v.
(** PutEnv("n=v"), PutEnv("n"), UnPutEnv("n"), UnPutEnv("n=v"). *)
Inductive call := CPut (n v : str) | CPutName (n : str) | CUnPut (n : str) | CUnPutBoth (n v : str).
Definition call_ok (c : call) : Prop :=
  match c with CPut n v | CUnPutBoth n v => name_ok n /\ value_ok v | CPutName n | CUnPut n => name_ok n end.
(** Variables as a function, and what each call means. *)
Definition vars := str -> option str.
Definition means (c : call) (m : vars) : vars :=
  match c with
  | CPut n v => fun k => if str_dec k n then Some v else m k
  | CPutName n | CUnPut n | CUnPutBoth n _ => fun k => if str_dec k n then None else m k
  end.
