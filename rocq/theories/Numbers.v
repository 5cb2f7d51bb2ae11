(** Numbers.v -- decimal text of integers (operator<< and operator>> of
    iostreams for int / long, "C" locale). *)
From Coq Require Import Decimal DecimalNat DecimalZ DecimalPos.
From Verif Require Import Base.

Fixpoint uint_str (u : Decimal.uint) : str :=
  match u with
  | Decimal.Nil => []
  | D0 r => "0"%char :: uint_str r | D1 r => "1"%char :: uint_str r | D2 r => "2"%char :: uint_str r
  | D3 r => "3"%char :: uint_str r | D4 r => "4"%char :: uint_str r | D5 r => "5"%char :: uint_str r
  | D6 r => "6"%char :: uint_str r | D7 r => "7"%char :: uint_str r | D8 r => "8"%char :: uint_str r
  | D9 r => "9"%char :: uint_str r
  end.
Definition dec (z : Z) : str :=
  match Z.to_int z with
  | Pos u => uint_str u
  | Neg u => "-"%char :: uint_str u
  end.

Lemma uint_str_digits u c : In c (uint_str u) -> is_digit c = true.
Proof. induction u; cbn; [contradiction|..]; intros [<-|H]; try reflexivity; auto. Qed.
Lemma dec_chars z c : In c (dec z) -> is_digit c = true \/ c = "-"%char.
Proof.
  unfold dec. destruct (Z.to_int z); [|intros [<-|H]]; eauto using uint_str_digits.
Qed.
