(** Base64Spec.v -- base64 as RFC 4648 section 4 describes it, by bits;
    independent of Base64Model. *)
From Coq Require Import List ZArith Bool.
Import ListNotations.
Local Open Scope Z_scope.

Definition byte (b : Z) : Prop := 0 <= b < 256.
(** The eight bits of a byte, most significant first. *)
Definition bits (b : Z) : list bool := map (Z.testbit b) [7; 6; 5; 4; 3; 2; 1; 0].
(** Groups of six bits, the last one filled up with zeros. *)
Fixpoint sextets (l : list bool) : list (list bool) :=
  match l with
  | [] => []
  | a :: b :: c :: d :: e :: f :: r => [a; b; c; d; e; f] :: sextets r
  | _ => [firstn 6 (l ++ repeat false 6)]
  end.
Definition value (l : list bool) : Z := fold_left (fun n b => 2 * n + Z.b2z b) l 0.
(** Table 1 of the RFC: A-Z, a-z, 0-9, plus, slash. *)
Definition letter (v : Z) : Z :=
  if v <? 26 then 65 + v else if v <? 52 then 97 + (v - 26) else if v <? 62 then 48 + (v - 52) else if v =? 62 then 43 else 47.
(** Padding to a multiple of four characters. *)
Definition padding (n : nat) : list Z := repeat 61 ((3 - n mod 3) mod 3).
Definition base64 (l : list Z) : list Z := map (fun s => letter (value s)) (sextets (flat_map bits l)) ++ padding (length l).
