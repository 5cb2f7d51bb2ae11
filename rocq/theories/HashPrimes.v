(** The sizes of tables are prime numbers (hashtable.hxx.in, the list of primes). *)
From Coq Require Import ZArith Znumtheory Lia List.
From Verif Require Import HashModel HashProps.
Open Scope Z_scope.

(** Trial division by d, d + 2, d + 4 ... while their squares are not over n. *)
Fixpoint trial (fuel : nat) (d n : Z) : bool :=
  match fuel with
  | O => false
  | S f => if n <? d * d then true else if n mod d =? 0 then false else trial f (d + 2) n
  end.
Lemma trial_ok fuel : forall d n, 1 < d -> trial fuel d n = true -> exists k, 0 <= k /\ n < (d + 2 * k) * (d + 2 * k) /\ forall i, 0 <= i < k -> n mod (d + 2 * i) <> 0.
Proof.
  induction fuel as [|f IH]; cbn [trial]; intros d n D H; [discriminate|].
  destruct (Z.ltb_spec n (d * d)) as [L|L]. { exists 0. split; [lia|]. split; [|intros; lia]. replace (d + 2 * 0) with d by lia. exact L. }
  destruct (Z.eqb_spec (n mod d) 0) as [E|E]; [discriminate|]. destruct (IH (d + 2) n ltac:(lia) H) as (k & K & A & B).
  exists (k + 1). split; [lia|]. split. { replace (d + 2 * (k + 1)) with (d + 2 + 2 * k) by lia. exact A. }
  intros i Hi. destruct (Z.eq_dec i 0) as [I0|I0]. { subst i. replace (d + 2 * 0) with d by lia. exact E. }
  replace (d + 2 * i) with (d + 2 + 2 * (i - 1)) by lia. apply B. lia.
Qed.
Lemma trial_prime fuel n : 3 < n -> n mod 2 <> 0 -> trial fuel 3 n = true -> prime n.
Proof.
  intros N O T. destruct (trial_ok _ 3 n ltac:(lia) T) as (k & K & A & B).
  apply prime_alt. split; [lia|]. intros a Ha D. destruct D as (b & D).
  assert (Nb : 1 < b < n) by nia.
  (* the smaller of the two factors *)
  assert (C : forall x y, 1 < x -> x <= y -> n = y * x -> False).
  { intros x y X Y E. assert (x < 3 + 2 * k) by nia.
    destruct (Z.eq_dec (x mod 2) 0) as [E2|E2].
    - apply O. rewrite E. rewrite Z.mul_mod, E2, Z.mul_0_r by lia. reflexivity.
    - assert (Hx : x = 1 + 2 * (x / 2)). { pose proof (Z.div_mod x 2 ltac:(lia)). pose proof (Z.mod_pos_bound x 2 ltac:(lia)). lia. }
      apply (B (x / 2 - 1)); [lia|]. replace (3 + 2 * (x / 2 - 1)) with x by lia. rewrite E. apply Z.mod_mul. lia. }
  destruct (Z.le_ge_cases a b); [apply (C a b)|apply (C b a)]; lia.
Qed.
Definition small_primes : bool := forallb (fun p => let z := Z.of_N p in (12582917 <? z) || (3 <? z) && negb (z mod 2 =? 0) && trial (Z.to_nat 4000) 3 z)%bool prime_list.
Lemma small_primes_true : small_primes = true.
Proof. vm_compute. reflexivity. Qed.
(** The number of buckets a table is given is a prime number (here: for tables
    of up to 12582917 buckets; the longer sizes of the list are not looked at). *)
Theorem C122_prime_sizes : forall n, (n <= 12582917)%N -> prime (Z.of_N (next_prime n)).
Proof.
  intros n L. destruct (C122_next_prime n) as [I [M _]]. pose proof small_primes_true as P. unfold small_primes in P. rewrite forallb_forall in P.
  specialize (P _ I). cbv beta zeta in P.
  assert (U : (next_prime n <= 12582917)%N).
  { destruct (M ltac:(lia)) as [_ U]. apply U; [|exact L]. unfold prime_list. repeat (try (left; reflexivity); right). }
  apply Bool.orb_prop in P. destruct P as [P|P]. { apply Z.ltb_lt in P. lia. }
  apply andb_prop in P. destruct P as [P T]. apply andb_prop in P. destruct P as [P1 P2].
  apply (trial_prime (Z.to_nat 4000)); [apply Z.ltb_lt; exact P1| |exact T]. intro E. rewrite E in P2. discriminate P2.
Qed.
Print Assumptions C122_prime_sizes.
Example C122_prime_ex : next_prime 60 = 97%N /\ next_prime 0 = 5%N.
Proof. split; reflexivity. Qed.
