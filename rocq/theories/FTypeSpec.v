(** FTypeSpec.v -- what C133 speaks of, without the model. *)
From Coq Require Import ZArith Reals.
From Verif Require Import Base.
(** The bytes the code takes for text: 32 to 127, tabulator, line feed, return. *)
Definition text_byte (c : ascii) : bool :=
  let v := nat_of_ascii c in
  ((Nat.leb 32 v && Nat.leb v 127) || existsb (Nat.eqb v) [9; 10; 13])%bool.
(** The number of other bytes. *)
Definition other_bytes (s : str) : nat := length (filter (fun c => negb (text_byte c)) s).
