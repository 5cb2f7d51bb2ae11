(** LineProofs.v -- lemmas about LineModel. *)
From Verif Require Import Base ConfigModel LineModel LineSpec.

Lemma gl_store_app m : forall s a r, gl_store m s = (a, r) -> s = a ++ r /\ length a <= m /\ ~ In nl a.
Proof.
  induction m as [|m IH]; intros s a r; cbn [gl_store].
  - intro H; injection H as <- <-. simpl. auto.
  - destruct s as [|c s].
    + intro H; injection H as <- <-. simpl. split; [reflexivity|]. split; [lia|auto].
    + destruct (Ascii.eqb c nl) eqn:E.
      * intro H; injection H as <- <-. simpl. split; [reflexivity|]. split; [lia|auto].
      * destruct (gl_store m s) as [a0 r0] eqn:G.
        intro H; injection H as <- <-. apply IH in G as (-> & Hl & Hn).
        simpl. split; [reflexivity|]. split; [lia|].
        intros [->|Hi]; [rewrite Ascii.eqb_refl in E; discriminate|]. exact (Hn Hi).
Qed.

Lemma gl_store_full m : forall p x, length p = m -> ~ In nl p -> gl_store m (p ++ x) = (p, x).
Proof.
  induction m as [|m IH]; intros p x Hl Hn; destruct p as [|c p]; try discriminate; cbn [gl_store app].
  - reflexivity.
  - destruct (Ascii.eqb_spec c nl) as [->|_]; [exfalso; apply Hn; left; reflexivity|].
    rewrite IH; [reflexivity| simpl in Hl; lia | intro Hi; apply Hn; right; exact Hi].
Qed.

Lemma gl_store_nl m : forall p x, length p <= m -> ~ In nl p -> gl_store m (p ++ nl :: x) = (p, nl :: x).
Proof.
  induction m as [|m IH]; intros p x Hl Hn; destruct p as [|c p]; cbn [gl_store app].
  - reflexivity.
  - simpl in Hl; lia.
  - rewrite Ascii.eqb_refl. reflexivity.
  - destruct (Ascii.eqb_spec c nl) as [->|_]; [exfalso; apply Hn; left; reflexivity|].
    rewrite IH; [reflexivity| simpl in Hl; lia | intro Hi; apply Hn; right; exact Hi].
Qed.

Lemma gl_store_end m : forall p, length p <= m -> ~ In nl p -> gl_store m p = (p, []).
Proof.
  induction m as [|m IH]; intros p Hl Hn; destruct p as [|c p]; cbn [gl_store].
  - reflexivity.
  - simpl in Hl; lia.
  - reflexivity.
  - destruct (Ascii.eqb_spec c nl) as [->|_]; [exfalso; apply Hn; left; reflexivity|].
    rewrite IH; [reflexivity| simpl in Hl; lia | intro Hi; apply Hn; right; exact Hi].
Qed.

(* ---------------- C strings ---------------- *)
Lemma cstr_plain b : ~ In nul b -> cstr b = b.
Proof.
  induction b as [|c b IH]; intro H; cbn [cstr]; [reflexivity|].
  destruct (Ascii.eqb_spec c nul) as [->|_]; [exfalso; apply H; left; reflexivity|].
  rewrite IH; [reflexivity|]. intro Hi; apply H; right; exact Hi.
Qed.

Lemma cstr_length b : length (cstr b) <= length b.
Proof. induction b as [|c b IH]; cbn [cstr]; [lia|]. destruct (Ascii.eqb c nul); simpl; lia. Qed.

Lemma cstr_lupd b : forall i, cstr (lupd b i nul) = firstn i (cstr b).
Proof.
  induction b as [|c b IH]; intros i; cbn [lupd cstr].
  - destruct i; reflexivity.
  - destruct i; cbn [cstr].
    + reflexivity.
    + destruct (Ascii.eqb c nul); cbn [firstn]; [reflexivity|]. rewrite IH. reflexivity.
Qed.

Lemma cstr_no_nul b : ~ In nul (cstr b).
Proof.
  induction b as [|c b IH]; cbn [cstr]; [auto|].
  destruct (Ascii.eqb_spec c nul) as [->|N]; [auto|].
  intros [H|H]; [apply N; exact H|exact (IH H)].
Qed.

Lemma cstr_nth b : forall i d, i < length (cstr b) -> nth i b d = nth i (cstr b) d.
Proof.
  induction b as [|c b IH]; intros i d; cbn [cstr]; [simpl; lia|].
  destruct (Ascii.eqb c nul); [simpl; lia|].
  destruct i; simpl; [reflexivity|]. intro H. apply IH. lia.
Qed.

Lemma drop_cr_snoc_cr q : drop_cr (q ++ [cr]) = q.
Proof.
  unfold drop_cr. rewrite rev_app_distr. cbn [rev app].
  change (Ascii.eqb cr "013"%char) with true. cbv iota. apply rev_involutive.
Qed.
Lemma drop_cr_snoc q c : c <> cr -> drop_cr (q ++ [c]) = q ++ [c].
Proof.
  intro H. unfold drop_cr. rewrite rev_app_distr. cbn [rev app].
  destruct (Ascii.eqb_spec c "013"%char) as [E|_]; [exfalso; apply H; exact E|reflexivity].
Qed.
Lemma drop_cr_nil : drop_cr [] = [].
Proof. reflexivity. Qed.

(** The code's way of dropping the CR is [drop_cr] of the C string. *)
Lemma strip_is_drop_cr b :
  cstr (if Nat.ltb 0 (length (cstr b)) && Ascii.eqb (nth (length (cstr b) - 1) b nul) cr
        then lupd b (length (cstr b) - 1) nul else b) = drop_cr (cstr b).
Proof.
  destruct (Nat.ltb_spec 0 (length (cstr b))) as [Hl|Hl]; cbn [andb].
  - rewrite cstr_nth by lia.
    destruct (exists_last (l:=cstr b)) as (q & c & E); [intros E; rewrite E in Hl; simpl in Hl; lia|].
    rewrite E. rewrite app_length; cbn [length].
    replace (length q + 1 - 1) with (length q) by lia.
    rewrite app_nth2 by lia. rewrite Nat.sub_diag. cbn [nth].
    destruct (Ascii.eqb_spec c cr) as [->|N].
    + rewrite cstr_lupd, E, firstn_app, Nat.sub_diag, firstn_all. cbn [firstn].
      rewrite app_nil_r. symmetry; apply drop_cr_snoc_cr.
    + rewrite drop_cr_snoc by exact N. exact E.
  - destruct (cstr b); [reflexivity|simpl in Hl; lia].
Qed.

Lemma drop_cr_firstn l i : i < length l -> firstn i (drop_cr l) = firstn i l.
Proof.
  intro H. destruct (exists_last (l:=l)) as (q & c & ->); [intros ->; simpl in H; lia|].
  rewrite app_length in H; cbn [length] in H.
  destruct (ascii_dec c cr) as [->|N].
  - rewrite drop_cr_snoc_cr, firstn_app. replace (i - length q) with 0 by lia.
    cbn [firstn]. rewrite app_nil_r. reflexivity.
  - rewrite drop_cr_snoc by exact N. reflexivity.
Qed.
Lemma drop_cr_length l : length (drop_cr l) <= length l.
Proof.
  destruct l as [|x l]; [simpl; auto|].
  destruct (exists_last (l:=x :: l)) as (q & c & ->); [discriminate|].
  destruct (ascii_dec c cr) as [->|N].
  - rewrite drop_cr_snoc_cr, app_length; lia.
  - rewrite drop_cr_snoc by exact N. lia.
Qed.

(** What one turn of the loop appends and leaves of the budget. *)
Definition piece_out (left : Z) (p : str) : str :=
  if (0 <? left)%Z && (left <? Z.of_nat (length p))%Z
  then firstn (Z.to_nat (left - 1)) p else drop_cr p.
Definition left_out (left : Z) (p : str) : Z :=
  if (0 <? left)%Z then
    if (left <? Z.of_nat (length p))%Z then 0%Z else (left - Z.of_nat (length p))%Z
  else left.

Lemma glfs_loop_eq fuel n s line left hd hn :
  glfs_loop fuel n s line left hd hn =
  if hn || (left =? 0)%Z then Ok (line, hd, hn, s)
  else
    let '(buffer, gcount, s1) := is_getline n (clear_fail s) in
    if Nat.eqb gcount 0 then Ok (line, hd, hn, s1)
    else match fuel with
         | O => NoFuel
         | S fuel' =>
             let p := cstr buffer in
             if (0 <? left)%Z && (left <? Z.of_nat (length p))%Z && (Z.of_nat n <=? left - 1)%Z
             then UB
             else glfs_loop fuel' n s1 (line ++ piece_out left p) (left_out left p) true
                            (Nat.ltb (length p) gcount)
         end.
Proof.
  destruct fuel; cbn [glfs_loop]; destruct (hn || (left =? 0)%Z); try reflexivity;
    destruct (is_getline n (clear_fail s)) as [[buffer gcount] s1];
    destruct (Nat.eqb gcount 0); try reflexivity.
  cbv zeta. unfold piece_out, left_out.
  set (b1 := if Nat.ltb 0 _ && _ then _ else _).
  assert (E1 : cstr b1 = drop_cr (cstr buffer)) by apply strip_is_drop_cr.
  destruct (0 <? left)%Z eqn:E0; cbn [andb].
  - destruct (left <? Z.of_nat (length (cstr buffer)))%Z eqn:E2; cbn [andb].
    + destruct (Z.of_nat n <=? left - 1)%Z; [reflexivity|].
      apply Z.ltb_lt in E0, E2.
      rewrite cstr_lupd, E1, drop_cr_firstn by lia. reflexivity.
    + rewrite E1. reflexivity.
  - rewrite E1. reflexivity.
Qed.

Lemma is_getline_good n s : is_good s = true ->
  is_getline n s =
    let '(a, r) := gl_store (n - 1) (is_rest s) in
    let '(count, r', eofb, failb) :=
      match r with
      | [] => (length a, [], true, false)
      | c :: r0 => if Ascii.eqb c nl then (S (length a), r0, false, false)
                   else (length a, r, false, true)
      end in
    (a, count, IStr r' eofb (failb || Nat.eqb count 0) false).
Proof. intro H. unfold is_getline. rewrite H. reflexivity. Qed.

(** What a successful or failed [getline] does to the stream. *)
Lemma is_getline_props n s b g s1 : is_getline n s = (b, g, s1) ->
  length b <= n - 1 /\ length b <= g <= S (length b) /\
  (exists used, is_rest s = used ++ is_rest s1 /\ length used = g) /\
  (g = 0 -> is_fail s1 = true) /\ is_bad s1 = is_bad s.
Proof.
  unfold is_getline. destruct (is_good s) eqn:G; cbn [negb].
  - destruct (gl_store (n - 1) (is_rest s)) as [a r] eqn:Eg.
    apply gl_store_app in Eg as (Er & Hl & _).
    assert (Eb : is_bad s = false).
    { unfold is_good in G. destruct (is_bad s); [|reflexivity].
      rewrite orb_true_r in G. discriminate. }
    destruct r as [|c r].
    + intro H; injection H as <- <- <-. cbn [is_rest is_fail is_bad].
      split; [exact Hl|]. split; [lia|]. split; [exists a; auto|].
      split; [intros ->; reflexivity|]. congruence.
    + destruct (Ascii.eqb_spec c nl) as [->|N].
      * intro H; injection H as <- <- <-. cbn [is_rest is_fail is_bad].
        split; [exact Hl|]. split; [lia|].
        split; [exists (a ++ [nl]); rewrite <- app_assoc; split; [exact Er|]; rewrite app_length; simpl; lia|].
        split; [lia|]. congruence.
      * intro H; injection H as <- <- <-. cbn [is_rest is_fail is_bad].
        split; [exact Hl|]. split; [lia|]. split; [exists a; auto|].
        split; [reflexivity|]. congruence.
  - intro H; injection H as <- <- <-. cbn [is_rest is_fail is_bad length].
    split; [lia|]. split; [lia|]. split; [exists []; auto|]. auto.
Qed.
