(** FmtProps.v -- property C131: EstimateFormatLength. *)
From Coq Require Import List Ascii Bool Arith Lia ZArith NArith.
Import ListNotations.
From Verif Require Import Base FmtModel FmtSpec.

Lemma letter_at fl c r : (forall x, In x fl -> is_alpha x = false) -> is_alpha c = true -> to_letter (fl ++ c :: r) = Some (c, r).
Proof. induction fl as [|x fl IH]; intros H C; cbn [app to_letter]; [now rewrite C|]. rewrite (H x) by now left. apply IH; auto. intros y I. apply H. now right. Qed.
Lemma eat_typed c a o fl ap : typed c a -> eat c (a :: ap) = Some (share (Conv fl c a o), ap).
Proof.
  intro T. unfold eat. destruct a as [s|z| |]; cbn [typed] in T.
  - subst c. destruct s; reflexivity.
  - destruct T as (N1 & N2). destruct (Ascii.eqb_spec c "s"); [congruence|]. destruct (Ascii.eqb_spec c "e"); [elim N2; left; assumption|]. destruct (Ascii.eqb_spec c "f"); [elim N2; right; left; assumption|]. destruct (Ascii.eqb_spec c "g"); [elim N2; right; right; assumption|]. reflexivity.
  - destruct T as [-> | [-> | ->]]; reflexivity.
  - destruct T.
Qed.
Definition total (l : list piece) : nat := list_sum (map share l).
Lemma scan_ok l : Forall understood l -> forall fuel rest ap len, length (format_of l) < fuel -> exists fuel', fuel' >= fuel - length (format_of l) /\
  scan fuel (format_of l ++ rest) (args_of l ++ ap) len = scan fuel' rest ap (len + total l).
Proof.
  induction 1 as [|p l P _ IH]; intros fuel rest ap len F.
  - exists fuel. split; [cbn; lia|]. unfold total. cbn. rewrite Nat.add_0_r. reflexivity.
  - unfold format_of, args_of, total in *. cbn [map concat list_sum fold_right] in *. rewrite app_length in F. rewrite <- !app_assoc.
    set (R := concat (map fmt l)) in *. set (A := concat (map args l)) in *. rewrite app_length.
    assert (STEP : forall g len', length R < g -> g >= fuel - length (fmt p) -> scan fuel (fmt p ++ R ++ rest) (args p ++ A ++ ap) len = scan g (R ++ rest) (A ++ ap) len' -> len' = len + share p ->
      exists fuel', fuel' >= fuel - (length (fmt p) + length R) /\ scan fuel (fmt p ++ R ++ rest) (args p ++ A ++ ap) len = scan fuel' rest ap (len + (share p + fold_right Nat.add 0 (map share l)))).
    { intros g len' G1 G2 E ->. destruct (IH g rest ap (len + share p) G1) as (f' & F1 & F2). exists f'. split; [lia|]. rewrite E, F2. f_equal. unfold list_sum. lia. }
    destruct p as [t| |fl c a o]; cbn [fmt args] in *.
    + apply (STEP (fuel - length t) len); [lia|lia| |cbn; lia]. cbn [app]. clear STEP IH. revert fuel F. induction t as [|x t IHt]; intros fuel F; [cbn; now rewrite Nat.sub_0_r|].
      destruct fuel as [|fuel]; [lia|]. cbn [app scan length Nat.sub]. destruct (Ascii.eqb_spec x "%") as [->|N]; [elim P; now left|]. apply IHt; [intro I; apply P; now right|cbn in F; lia].
    + change (length (L "%%")) with 2 in *. destruct fuel as [|fuel]; [lia|]. apply (STEP fuel len); [lia|lia|reflexivity|cbn; lia].
    + destruct P as (P1 & P2 & P3 & P4). change (length (L "%" ++ fl ++ [c])) with (S (length (fl ++ [c]))) in *. rewrite app_length in *. cbn [length] in *. destruct fuel as [|fuel]; [lia|].
      apply (STEP fuel (len + share (Conv fl c a o))); [lia|lia| |reflexivity].
      change ((L "%" ++ fl ++ [c]) ++ R ++ rest) with ("%"%char :: (fl ++ [c]) ++ R ++ rest). change ([a] ++ A ++ ap) with (a :: A ++ ap). rewrite <- app_assoc. cbn [app]. cbn [scan]. change (Ascii.eqb "%" "%") with true. cbn iota.
      rewrite (letter_at fl c (R ++ rest) P1 P3), (eat_typed c a o fl _ P4).
      destruct fl as [|x fl]; cbn [app].
      * destruct (Ascii.eqb_spec c "%") as [->|]; [discriminate|reflexivity].
      * cbn [hd] in P2. destruct (Ascii.eqb_spec x "%"); [congruence|reflexivity].
Qed.
(** The length of the format, and for every conversion 64 or the length of its string. *)
Theorem C131_value : forall l, Forall understood l -> let n := length (format_of l) + list_sum (map share l) in (Z.of_nat n < 2147483648)%Z -> estimate (Some (format_of l)) (args_of l) = Some (Z.of_nat n).
Proof.
  intros l H. cbn zeta. intro B. unfold estimate. destruct (scan_ok l H (S (length (format_of l))) [] [] (length (format_of l)) ltac:(lia)) as (f & F1 & F2). rewrite !app_nil_r in F2. rewrite F2.
  destruct f as [|f]; [lia|]. cbn [scan]. unfold total. f_equal. unfold to_int. rewrite Z.mod_small by lia. destruct (Z.ltb_spec (Z.of_nat (length (format_of l) + list_sum (map share l))) 2147483648); [reflexivity|lia].
Qed.
Print Assumptions C131_value.
(** It is enough if no conversion of a number writes more than 64 characters
    (and those of the conversion itself), and no conversion of a string more than the string. *)
Definition fits (p : piece) : Prop := length (written p) <= share p + length (fmt p).
Theorem C131_enough : forall l, Forall understood l -> Forall fits l -> (Z.of_nat (length (format_of l) + list_sum (map share l)) < 2147483648)%Z ->
  exists n, estimate (Some (format_of l)) (args_of l) = Some n /\ (Z.of_nat (length (output_of l)) <= n)%Z.
Proof.
  intros l U F B. eexists. split; [apply (C131_value l U B)|]. apply inj_le. clear U B. unfold output_of, format_of. induction F as [|p l P _ IH]; [cbn; lia|]. unfold fits in P. cbn [map concat list_sum fold_right] in *. rewrite !app_length. unfold list_sum in IH. lia.
Qed.
Print Assumptions C131_enough.
Lemma dec_len f : forall n r, length (digits_of f n r) <= f + length r.
Proof. induction f as [|f IH]; intros n r; [cbn; lia|]. cbn [digits_of]. destruct (_ =? 0)%N; [cbn; lia|]. specialize (IH (n / 10)%N (ascii_of_N (48 + n mod 10) :: r)). cbn [length] in IH. lia. Qed.
Lemma decimal_len z : length (decimal z) <= 11.
Proof. unfold decimal. rewrite app_length. pose proof (dec_len 10 (Z.abs_N z) []) as D. cbn [length] in D. destruct (z <? 0)%Z; [change (length (L "-")) with 1|cbn [length]]; lia. Qed.
(** Plain conversions fit. *)
Theorem C131_plain : forall l, Forall plain l -> (Z.of_nat (length (format_of l) + list_sum (map share l)) < 2147483648)%Z ->
  exists n, estimate (Some (format_of l)) (args_of l) = Some n /\ (Z.of_nat (length (output_of l)) <= n)%Z.
Proof.
  intros l H. apply C131_enough; apply (Forall_impl _ (P := plain)); [|exact H| |exact H]; intros p P.
  - destruct P as [t T| |x|z|z Z0|z Z0]; cbn [understood typed]; auto; (split; [intros y []|]); (split; [discriminate|]); (split; [reflexivity|]); auto; (split; [discriminate|intros [E|[E|E]]; discriminate]).
  - unfold fits. destruct P as [t T| |x|z|z Z0|z Z0]; cbn [written share fmt].
    + lia.
    + change (1 <= 0 + 2). lia.
    + lia.
    + cbn [length]. lia.
    + pose proof (decimal_len z). lia.
    + pose proof (decimal_len z). lia.
Qed.
Print Assumptions C131_plain.
(** "Should never under-estimate": a width or a precision is not looked at. *)
Theorem C131_never_under_refuted : estimate (Some (L "%100d")) [VInt 7] = Some 69%Z /\ length (field 100 (decimal 7)) = 100 /\
  estimate (Some (L "%9s")) [VStr (Some [])] = Some 3%Z /\ length (field 9 []) = 9.
Proof. vm_compute. repeat split. Qed.
Print Assumptions C131_never_under_refuted.
(** A format with a '%' that no letter follows is read past its end; a long
    argument is fetched as an int; a width given as an argument is taken for
    the number. *)
Lemma no_letter fl : (forall x, In x fl -> is_alpha x = false) -> to_letter fl = None.
Proof. induction fl as [|x fl IH]; intro H; [reflexivity|]. cbn. rewrite (H x) by now left. apply IH. intros y I. apply H. now right. Qed.
Theorem C131_percent_at_end_refuted : forall l fl ap, Forall understood l -> (forall x, In x fl -> is_alpha x = false) -> hd "x"%char fl <> "%"%char ->
  estimate (Some (format_of l ++ L "%" ++ fl)) (args_of l ++ ap) = None.
Proof.
  intros l fl ap U F N. unfold estimate. rewrite !app_length. destruct (scan_ok l U (S (length (format_of l) + (length (L "%") + length fl))) (L "%" ++ fl) ap (length (format_of l) + (length (L "%") + length fl)) ltac:(lia)) as (f & F1 & ->).
  destruct f as [|f]; [change (length (L "%")) with 1 in F1; lia|]. change (L "%" ++ fl) with ("%"%char :: fl). cbn [scan]. change (Ascii.eqb "%" "%") with true. cbn iota. rewrite (no_letter fl F). destruct fl as [|x fl]; [reflexivity|]. cbn [hd] in N. destruct (Ascii.eqb_spec x "%"); [congruence|reflexivity].
Qed.
Print Assumptions C131_percent_at_end_refuted.
Theorem C131_arguments_refuted : (forall f, estimate (Some (L "%ld" ++ f)) [VOther] = None) /\ (forall s f, estimate (Some (L "%*d%s" ++ f)) [VInt 3; VInt 7; VStr s] = None).
Proof. split; reflexivity. Qed.
Print Assumptions C131_arguments_refuted.
Theorem C131_null : forall ap, estimate None ap = Some 0%Z /\ estimate (Some []) ap = Some 0%Z.
Proof. split; reflexivity. Qed.
Example C131_ex : Forall plain [Text (L "a="); Conv [] "d" (VInt (-42)) (decimal (-42)); Percent; Conv [] "s" (VStr (Some (L "xyz"))) (L "xyz")] /\
  decimal (-42) = L "-42" /\ decimal 2147483647 = L "2147483647" /\ estimate (Some (L "a=%d%%%s")) [VInt (-42); VStr (Some (L "xyz"))] = Some 75%Z /\
  understood (Conv (L "-08.3") "f" VDouble (L "1.000   ")).
Proof.
  split; [|split; [reflexivity|split; [reflexivity|split; [reflexivity|]]]].
  - repeat constructor; try lia. intros I. repeat (destruct I as [I|I]; [discriminate I|]). exact I.
  - split; [intros x I; repeat (destruct I as [<-|I]; [reflexivity|]); destruct I|]. split; [discriminate|]. split; [reflexivity|]. right. left. reflexivity.
Qed.
