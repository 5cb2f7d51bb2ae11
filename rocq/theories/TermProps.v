(** TermProps.v -- C141: coloured output and the width of the terminal. *)
From Coq Require Import List ZArith NArith Bool Ascii String Lia.
Import ListNotations.
From Verif Require Import Base TermModel TermSpec.
Open Scope list_scope.

Lemma show_app t a b : show t (a ++ b) = (let '(t1, o1) := show t a in let '(t2, o2) := show t1 b in (t2, o1 ++ o2)).
Proof.
  revert t. induction a as [|c a IH]; intros t; cbn [app show]; [destruct (show t b); reflexivity|].
  destruct (receive t c) as [t1 o1]. rewrite IH. destruct (show t1 a) as [t2 o2]. destruct (show t2 b) as [t3 o3]. rewrite app_assoc. reflexivity.
Qed.
Lemma show_text a s : ~ In ESC s -> show (Ground, a) s = ((Ground, a), map (fun c => (c, a)) s).
Proof.
  induction s as [|c s IH]; intros N; [reflexivity|]. cbn [show receive]. destruct (Nat.eqb_spec (nat_of_ascii c) 27) as [E|E].
  - exfalso. apply N. left. unfold ESC. rewrite <- E. symmetry. apply ascii_nat_embedding.
  - rewrite IH; [reflexivity|]. intros I. apply N. right. exact I.
Qed.
(** In whatever state the terminal is, after the sequence for normal text it is as at
    the beginning. *)
Lemma show_normal m a : show (m, a) (vt "0") = ((Ground, plain), []).
Proof. destruct m; reflexivity. Qed.

Definition with_fg (f : N) (a : look) : look := match f with 0 => plain | _ => match one_of_eight f with Some n => Look (Some n) (bg a) (bold a) (underline a) (blink a) (inverse a) | None => a end end%N.
Definition with_bg (b : N) (a : look) : look := match one_of_eight b with Some n => Look (fg a) (Some n) (bold a) (underline a) (blink a) (inverse a) | None => a end.
Definition fg_text (f : N) : str := match f with
    | 0 => vt "0" | 1 => vt "30" | 2 => vt "31" | 3 => vt "32" | 4 => vt "33" | 5 => vt "34" | 6 => vt "35" | 7 => vt "36" | 8 => vt "37"
    | _ => []
    end%N.
Definition bg_text (b : N) : str := match b with
    | 1 => vt "40" | 2 => vt "41" | 3 => vt "42" | 4 => vt "43" | 5 => vt "44" | 6 => vt "45" | 7 => vt "46" | 8 => vt "47"
    | _ => []
    end%N.
Lemma below16 (P : N -> Prop) : P 0%N -> P 1%N -> P 2%N -> P 3%N -> P 4%N -> P 5%N -> P 6%N -> P 7%N -> P 8%N -> P 9%N -> P 10%N -> P 11%N -> P 12%N -> P 13%N -> P 14%N -> P 15%N -> forall n, (n < 16)%N -> P n.
Proof.
  intros. assert (K : (n = 0 \/ n = 1 \/ n = 2 \/ n = 3 \/ n = 4 \/ n = 5 \/ n = 6 \/ n = 7 \/ n = 8 \/ n = 9 \/ n = 10 \/ n = 11 \/ n = 12 \/ n = 13 \/ n = 14 \/ n = 15)%N) by lia.
  repeat (destruct K as [->|K]; [assumption|]). subst. assumption.
Qed.
Lemma show_fg f a : (f < 16)%N -> show (Ground, a) (fg_text f) = ((Ground, with_fg f a), []).
Proof. intros H. revert f H. apply below16; reflexivity. Qed.
Lemma show_bg b a : (b < 16)%N -> show (Ground, a) (bg_text b) = ((Ground, with_bg b a), []).
Proof. intros H. revert b H. apply below16; reflexivity. Qed.

Lemma mask_high color : N.land color 240 = ((color / 16) mod 16 * 16)%N.
Proof.
  change 16%N with (2 ^ 4)%N. rewrite <- N.shiftl_mul_pow2, <- N.land_ones, <- N.shiftr_div_pow2.
  apply N.bits_inj_iff. intros n. rewrite N.land_spec. destruct (N.ltb_spec n 4) as [Lt|Ge].
  - rewrite N.shiftl_spec_low by exact Lt. assert (K : N.testbit 240 n = false) by (assert (n = 0 \/ n = 1 \/ n = 2 \/ n = 3)%N as [->|[->|[->| ->]]] by lia; reflexivity).
    rewrite K. apply andb_false_r.
  - rewrite N.shiftl_spec_high' by exact Ge. rewrite N.land_spec, N.shiftr_spec'. replace (n - 4 + 4)%N with n by lia. f_equal.
    change 240%N with (N.shiftl (N.ones 4) 4). rewrite N.shiftl_spec_high' by exact Ge. reflexivity.
Qed.
Lemma mask_bit color k : (N.land color (2 ^ k) =? 0)%N = negb (N.testbit color k).
Proof.
  apply Bool.eq_iff_eq_true. rewrite N.eqb_eq, negb_true_iff. split.
  - intros H. assert (X : N.testbit (N.land color (2 ^ k)) k = false) by (rewrite H; apply N.bits_0). rewrite N.land_spec, N.pow2_bits_true, andb_true_r in X. exact X.
  - intros H. apply N.bits_inj_iff. intros n. rewrite N.land_spec, N.bits_0, N.pow2_bits_eqb. destruct (N.eqb_spec k n) as [<-|]; [rewrite H; reflexivity|apply andb_false_r].
Qed.
Lemma high_match (b : N) : (b < 16)%N -> match (b * 16)%N with
    | 16 => vt "40" | 32 => vt "41" | 48 => vt "42" | 64 => vt "43" | 80 => vt "44" | 96 => vt "45" | 112 => vt "46" | 128 => vt "47"
    | _ => []
    end%N = bg_text b.
Proof. revert b. apply below16; reflexivity. Qed.
Lemma set_color_shows color : show (Ground, plain) (set_color color) = ((Ground, wanted color), []).
Proof.
  unfold set_color. destruct (N.eqb_spec color 0) as [->|NZ]; [reflexivity|].
  change 15%N with (N.ones 4). rewrite N.land_ones, mask_high. change (2 ^ 4)%N with 16%N. change 256%N with (2 ^ 8)%N. rewrite mask_bit.
  unfold wanted. set (f := (color mod 16)%N). set (b := ((color / 16) mod 16)%N). set (k := N.testbit color 8).
  assert (F : (f < 16)%N) by (apply N.mod_upper_bound; discriminate). assert (B : (b < 16)%N) by (apply N.mod_upper_bound; discriminate).
  clearbody f b k. clear NZ. rewrite high_match by exact B. fold (fg_text f). rewrite show_app, (show_fg _ _ F). cbv beta iota. rewrite show_app, (show_bg _ _ B). cbv beta iota.
  assert (W : with_bg b (with_fg f plain) = Look (one_of_eight f) (one_of_eight b) false false false false).
  { assert (X : with_fg f plain = Look (one_of_eight f) None false false false false) by (revert f F; apply below16; reflexivity). rewrite X. unfold with_bg. destruct (one_of_eight b); reflexivity. }
  rewrite W. destruct k; cbn [negb]; reflexivity.
Qed.

Lemma is_vt100_iff e color : is_vt100 e (negb (N.land color 2048 =? 0)%N) = true <-> coloured e color.
Proof.
  assert (KN : forall t, existsb (str_eqb t) vt100_names = true <-> In t known).
  { intros t. rewrite existsb_exists. split.
    - intros (x & I & E). apply str_eqb_eq in E. subst x. revert I. assert (A : incl vt100_names known); [|apply A].
      assert (C : forallb (fun n => existsb (str_eqb n) known) vt100_names = true) by reflexivity. intros n I. rewrite forallb_forall in C. apply C in I. apply existsb_exists in I. destruct I as (y & I & E). apply str_eqb_eq in E. subst. exact I.
    - intros I. exists t. split; [|apply str_eqb_eq; reflexivity]. revert I. assert (A : incl known vt100_names); [|apply A].
      assert (C : forallb (fun n => existsb (str_eqb n) vt100_names) known = true) by reflexivity. intros n I. rewrite forallb_forall in C. apply C in I. apply existsb_exists in I. destruct I as (y & I & E). apply str_eqb_eq in E. subst. exact I. }
  unfold is_vt100, coloured. change 2048%N with (2 ^ 11)%N. rewrite mask_bit, negb_involutive.
  destruct (emacs e) as [[|c r]|] eqn:EM.
  2:{ destruct (ascii_eqb c "t") eqn:T.
      - apply Ascii.eqb_eq in T. subst c. split; [discriminate|]. intros (_ & H & _). exfalso. apply (H r). reflexivity.
      - assert (NT : forall r0, Some (c :: r) <> Some ("t"%char :: r0)) by (intros r0 X; inversion X; subst; discriminate).
        destruct (N.testbit color 11); cbn [negb andb]; [intuition congruence|]. destruct (term e) as [t|] eqn:TE.
        + destruct (existsb (str_eqb t) vt100_names) eqn:X; cbn [negb]; [apply KN in X; split; [intros; split; [auto|split; [auto|right; eauto]]|tauto]|].
          split; [discriminate|]. intros (_ & _ & [H|(t' & H & I)]); [discriminate|]. inversion H; subst t'. apply KN in I. congruence.
        + split; [discriminate|]. intros (_ & _ & [H|(t' & H & I)]); discriminate. }
  all: destruct (N.testbit color 11); cbn [negb andb]; [intuition congruence|]; destruct (term e) as [t|] eqn:TE;
    [destruct (existsb (str_eqb t) vt100_names) eqn:X; cbn [negb]; [apply KN in X; split; [intros; split; [auto|split; [congruence|right; eauto]]|tauto]|];
     split; [discriminate|]; intros (_ & _ & [H|(t' & H & I)]); [discriminate|]; inversion H; subst t'; apply KN in I; congruence
    |split; [discriminate|]; intros (_ & _ & [H|(t' & H & I)]); discriminate].
Qed.

(** Where colours are not used the bytes are the text. *)
Theorem C141_plain : forall e color text, ~ coloured e color -> cfprintf e color text = text.
Proof. intros e color text H. unfold cfprintf. rewrite <- is_vt100_iff in H. apply not_true_is_false in H. rewrite H. apply app_nil_r. Qed.
(** Whatever the text is and whatever was there before, afterwards the terminal is as
    at the beginning. *)
Theorem C141_restored : forall e color text t, coloured e color -> fst (show t (cfprintf e color text)) = (Ground, plain).
Proof.
  intros e color text [m a] H. unfold cfprintf. apply is_vt100_iff in H. rewrite H. cbn [set_color]. change (set_color 0) with (vt "0").
  rewrite show_app. destruct (show (m, a) (set_color color)) as [t1 o1]. rewrite show_app. destruct (show t1 text) as [[m2 a2] o2]. rewrite show_normal. reflexivity.
Qed.
(** A history of calls: each text is shown as its own call asks, and nothing else is
    shown. *)
Definition seen (k : env * N * str) (out : list (ascii * look)) : Prop :=
  let '(e, color, text) := k in
  coloured e color /\ out = map (fun c => (c, wanted color)) text \/ ~ coloured e color /\ out = map (fun c => (c, plain)) text.
Theorem C141_history : forall calls, Forall (fun k => ~ In ESC (snd k)) calls ->
  exists outs, show (Ground, plain) (flat_map (fun '(e, color, text) => cfprintf e color text) calls) = ((Ground, plain), concat outs) /\ Forall2 seen calls outs.
Proof.
  induction calls as [|[[e color] text] calls IH]; intros F; [exists []; split; [reflexivity|constructor]|].
  inversion F as [|? ? NE F']; subst. cbn [snd] in NE. destruct (IH F') as (outs & S1 & S2). cbn [flat_map]. rewrite show_app.
  clear IH. match type of S1 with show _ ?x = _ => set (rest := x) in * end. clearbody rest. unfold cfprintf. destruct (is_vt100 e (negb (N.land color 2048 =? 0)%N)) eqn:V.
  - exists (map (fun c => (c, wanted color)) text :: outs). change (set_color 0) with (vt "0"). rewrite show_app, set_color_shows. cbv beta iota. rewrite show_app, (show_text _ _ NE). cbv beta iota. rewrite show_normal. cbv beta iota. rewrite S1, app_nil_r. cbn [app concat].
    split; [reflexivity|]. constructor; [|exact S2]. left. split; [apply is_vt100_iff; exact V|reflexivity].
  - exists (map (fun c => (c, plain)) text :: outs). cbn [app]. rewrite app_nil_r, (show_text _ _ NE). cbv beta iota. rewrite S1. cbn [concat].
    split; [reflexivity|]. constructor; [|exact S2]. right. split; [rewrite <- is_vt100_iff; congruence|reflexivity].
Qed.

Open Scope Z_scope.
(** The width. *)
Lemma code_nat c : Z.of_N (code c) = Z.of_nat (nat_of_ascii c).
Proof. unfold code, nat_of_ascii. rewrite N_nat_Z. reflexivity. Qed.
Lemma value_iff c v : value_of c v <-> hex_val c = Some v.
Proof.
  destruct c as [[] [] [] [] [] [] [] []]; cbv [value_of]; cbn [nat_of_ascii]; 
  match goal with |- context [hex_val ?c] => let r := eval vm_compute in (hex_val c) in replace (hex_val c) with r by (vm_compute; reflexivity); let k := eval vm_compute in (Z.of_nat (nat_of_ascii c)) in replace (Z.of_nat (nat_of_ascii c)) with k by (vm_compute; reflexivity) end;
  (split; [intros H; try (f_equal; lia); exfalso; lia|intros H; inversion H; lia]).
Qed.
Lemma digits_iff base l n : digits base l n <-> Forall (fun c => digit_in base c = true) l /\ n = number base l.
Proof.
  split.
  - induction 1 as [|l c n v D [IH1 IH2] V B]; [split; [constructor|reflexivity]|]. apply value_iff in V. split.
    + apply Forall_app. split; [exact IH1|]. constructor; [|constructor]. unfold digit_in. rewrite V. apply Z.ltb_lt. exact B.
    + unfold number. rewrite fold_left_app. cbn [fold_left]. rewrite V. subst n. reflexivity.
  - intros [F ->]. induction l as [|c l IH] using rev_ind; [constructor|]. apply Forall_app in F. destruct F as [F1 F2]. inversion F2 as [|? ? D _]; subst.
    unfold number. rewrite fold_left_app. cbn [fold_left]. fold (number base l). unfold digit_in in D. destruct (hex_val c) as [v|] eqn:V; [|discriminate].
    constructor; [apply IH; exact F1|apply value_iff; exact V|apply Z.ltb_lt; exact D].
Qed.
Lemma value_nonneg c v : hex_val c = Some v -> 0 <= v.
Proof. intros H. apply value_iff in H. unfold value_of in H. lia. Qed.
Lemma number_nonneg base l : 0 <= base -> Forall (fun c => digit_in base c = true) l -> 0 <= number base l.
Proof.
  intros B F. induction l as [|c l IH] using rev_ind; [reflexivity|]. apply Forall_app in F. destruct F as [F1 F2]. unfold number. rewrite fold_left_app. cbn [fold_left]. fold (number base l).
  specialize (IH F1). destruct (hex_val c) as [v|] eqn:V; [apply value_nonneg in V|]; nia.
Qed.
(** From the sign on. *)
Definition base_of (s : str) : Z * str :=
  match s with
  | z :: x :: d :: r => if ascii_eqb z "0" && ascii_eqb (to_lower x) "x" && digit_in 16 d then (16, d :: r) else if ascii_eqb z "0" then (8, s) else (10, s)
  | z :: _ => if ascii_eqb z "0" then (8, s) else (10, s)
  | [] => (10, s)
  end.
Definition whole (s : str) : option Z :=
  let '(base, s) := base_of s in
  match take_while (digit_in base) s with [] => None | ds => match drop_while (digit_in base) s with [] => Some (number base ds) | _ => None end end.
Lemma take_all {A} (p : A -> bool) l : Forall (fun c => p c = true) l -> take_while p l = l /\ drop_while p l = [].
Proof. induction 1 as [|c l H F [I1 I2]]; [auto|]. cbn. rewrite H, I1. auto. Qed.
Lemma drop_nil {A} (p : A -> bool) l : drop_while p l = [] -> Forall (fun c => p c = true) l.
Proof. induction l as [|c l IH]; cbn; [constructor|]. destruct (p c) eqn:P; [auto|discriminate]. Qed.
Lemma digit_mono c : digit_in 8 c = true -> digit_in 16 c = true.
Proof. unfold digit_in. destruct (hex_val c); [|discriminate]. rewrite !Z.ltb_lt. lia. Qed.
Lemma not_x x : x = "x"%char \/ x = "X"%char <-> ascii_eqb (to_lower x) "x" = true.
Proof. destruct x as [[] [] [] [] [] [] [] []]; vm_compute; intuition congruence. Qed.
Lemma x_no_digit x : ascii_eqb (to_lower x) "x" = true -> digit_in 8 x = false.
Proof. rewrite <- not_x. intros [-> | ->]; reflexivity. Qed.
Lemma number_zero base l : number base ("0"%char :: l) = number base l.
Proof. unfold number. cbn [fold_left]. replace (base * 0 + _) with 0; [reflexivity|]. change (hex_val "0") with (Some 0). lia. Qed.
Lemma whole_iff s n : whole s = Some n <-> numeral s n.
Proof.
  assert (W : forall base l, (base, l) = base_of s -> whole s = Some n <-> l <> [] /\ digits base l n).
  { intros base l E. unfold whole. rewrite <- E. rewrite digits_iff. split.
    - destruct (take_while (digit_in base) l) as [|d ds] eqn:T; [discriminate|]. destruct (drop_while (digit_in base) l) as [|x r] eqn:D; [|discriminate]. intros H. inversion H as [H'].
      apply drop_nil in D. destruct (take_all _ _ D) as [T' _]. rewrite T' in T. split; [congruence|]. split; [exact D|congruence].
    - intros [N [F ->]]. destruct (take_all _ _ F) as [-> ->]. destruct l; congruence. }
  assert (DEC : forall c l, s = c :: l -> ascii_eqb c "0" = false -> base_of s = (10, s)).
  { intros c l -> E. unfold base_of. destruct l as [|x [|d r]]; rewrite E; reflexivity. }
  assert (Z8 : forall l, s = "0"%char :: l -> base_of s = (8, s) -> whole s = Some n <-> digits 8 l n).
  { intros l E B. rewrite (W _ _ (eq_sym B)). rewrite E, !digits_iff, number_zero. split; [intros [_ [F X]]; inversion F; auto|intros [F X]; split; [discriminate|split; [constructor; [reflexivity|exact F]|exact X]]]. }
  split.
  - intros H. destruct s as [|c l]; [cbn in H; discriminate|]. destruct (ascii_eqb c "0") eqn:E.
    2:{ specialize (DEC _ _ eq_refl E). apply (W _ _ (eq_sym DEC)) in H. destruct H as [_ H]. constructor; [intros ->; discriminate|exact H]. }
    apply Ascii.eqb_eq in E. subst c. destruct l as [|x [|d r]].
    + apply (Z8 [] eq_refl eq_refl) in H. constructor; exact H.
    + apply (Z8 [x] eq_refl eq_refl) in H. constructor; exact H.
    + destruct (ascii_eqb (to_lower x) "x" && digit_in 16 d) eqn:X.
      * assert (B : base_of ("0"%char :: x :: d :: r) = (16, d :: r)) by (unfold base_of; change (ascii_eqb "0" "0") with true; rewrite andb_true_l, X; reflexivity).
        apply (W _ _ (eq_sym B)) in H. destruct H as [_ H]. apply andb_true_iff in X. apply Hexadecimal; [apply not_x; tauto|discriminate|exact H].
      * assert (B : base_of ("0"%char :: x :: d :: r) = (8, "0"%char :: x :: d :: r)) by (unfold base_of; change (ascii_eqb "0" "0") with true; rewrite andb_true_l, X; reflexivity).
        apply (Z8 _ eq_refl B) in H. constructor; exact H.
  - intros H. destruct H as [c l n N D|l n D|x l n X N D].
    + assert (E : ascii_eqb c "0" = false) by (apply Ascii.eqb_neq; exact N). apply (W _ _ (eq_sym (DEC _ _ eq_refl E))). split; [discriminate|exact D].
    + apply (Z8 l eq_refl); [|exact D]. destruct l as [|x [|d r]]; try reflexivity. unfold base_of. change (ascii_eqb "0" "0") with true. rewrite andb_true_l.
      destruct (ascii_eqb (to_lower x) "x") eqn:X; [|reflexivity]. apply x_no_digit in X. apply digits_iff in D. destruct D as [D _]. inversion D; congruence.
    + destruct l as [|d r]; [congruence|]. assert (B : base_of ("0"%char :: x :: d :: r) = (16, d :: r)).
      { unfold base_of. change (ascii_eqb "0" "0") with true. apply not_x in X. apply digits_iff in D. destruct D as [D _]. inversion D as [|? ? D1 _]; subst. rewrite X, D1. reflexivity. }
      apply (W _ _ (eq_sym B)). split; [discriminate|exact D].
Qed.
Lemma whole_nonneg s n : whole s = Some n -> 0 <= n.
Proof.
  unfold whole. destruct (base_of s) as [base l] eqn:B. assert (0 <= base) by (unfold base_of in B; repeat match type of B with context [match ?x with _ => _ end] => destruct x end; inversion B; lia).
  destruct (take_while (digit_in base) l) as [|d ds] eqn:T; [discriminate|]. destruct (drop_while (digit_in base) l) as [|x r] eqn:D; [|discriminate]. intros E. inversion E. apply drop_nil in D. destruct (take_all _ _ D) as [T' _]. apply number_nonneg; [assumption|]. rewrite <- T, T'. exact D.
Qed.
Definition signed (s : str) : bool * str := match s with
                   | c :: r => if ascii_eqb c "-" then (true, r) else if ascii_eqb c "+" then (false, r) else (false, s)
                   | [] => (false, s)
                   end.
Lemma says_iff s n : s <> [] -> (let '(t, rest) := strtol0 s in rest = [] /\ 0 < t < 1000 /\ n = t) <-> says s n.
Proof.
  intros NE. destruct (signed (drop_while is_space s)) as [neg u] eqn:SG.
  assert (ST : strtol0 s = let '(base, s1) := base_of u in match take_while (digit_in base) s1 with [] => (0, s) | ds => (Z.max (- 2 ^ 63) (Z.min (2 ^ 63 - 1) (if neg then - number base ds else number base ds)), drop_while (digit_in base) s1) end).
  { change (strtol0 s) with (let '(neg, u) := signed (drop_while is_space s) in let '(base, s1) := base_of u in match take_while (digit_in base) s1 with [] => (0, s) | ds => (Z.max (- 2 ^ 63) (Z.min (2 ^ 63 - 1) (if neg then - number base ds else number base ds)), drop_while (digit_in base) s1) end). rewrite SG. reflexivity. }
  rewrite ST. clear ST.
  assert (X : (let '(t, rest) := let '(base, s1) := base_of u in match take_while (digit_in base) s1 with [] => (0, s) | ds => (Z.max (- 2 ^ 63) (Z.min (2 ^ 63 - 1) (if neg then - number base ds else number base ds)), drop_while (digit_in base) s1) end in rest = [] /\ 0 < t < 1000 /\ n = t) <-> neg = false /\ 1 <= n <= 999 /\ whole u = Some n).
  { pose proof (whole_nonneg u) as NN. unfold whole in *. destruct (base_of u) as [base s1]. destruct (take_while (digit_in base) s1) as [|d ds]; [split; [intros (E & _); congruence|intros (_ & _ & E); discriminate]|].
    destruct (drop_while (digit_in base) s1); [|split; [intros (E & _); discriminate|intros (_ & _ & E); discriminate]]. specialize (NN _ eq_refl). set (w := number base (d :: ds)) in *. clearbody w.
    destruct neg.
    - split; [intros (_ & A & _); lia|intros (E & _); discriminate].
    - split; [intros (_ & A & ->); split; [reflexivity|split; [lia|f_equal; lia]]|]. intros (_ & A & E). inversion E; subst. split; [reflexivity|]. lia. }
  rewrite X. clear X. unfold says. rewrite whole_iff. split.
  - intros (-> & R & H). split; [exact R|]. exists (take_while is_space s).
    assert (TW : s = take_while is_space s ++ drop_while is_space s) by (clear; induction s as [|c s IH]; [reflexivity|]; cbn; destruct (is_space c); [cbn; f_equal; exact IH|reflexivity]).
    assert (TF : Forall (fun c => is_space c = true) (take_while is_space s)) by (clear; induction s as [|c s IH]; [constructor|]; cbn; destruct (is_space c) eqn:E; [constructor; auto|constructor]).
    unfold signed in SG. destruct (drop_while is_space s) as [|c r].
    + inversion SG; subst u. inversion H.
    + destruct (ascii_eqb c "-"); [inversion SG|]. destruct (ascii_eqb c "+") eqn:P.
      * inversion SG; subst u. apply Ascii.eqb_eq in P. subst c. exists ["+"%char], r. auto.
      * inversion SG; subst u. exists [], (c :: r). auto.
  - intros (R & b & p & r & E & BF & P & H).
    assert (HD : exists c l, r = c :: l /\ is_space c = false /\ ascii_eqb c "-" = false /\ ascii_eqb c "+" = false).
    { destruct H as [c l n N D|l n D|x l n X0 N D]; [|eexists; eexists; split; [reflexivity|repeat split]..]. exists c, l. split; [reflexivity|]. apply digits_iff in D. destruct D as [D _]. inversion D as [|? ? D1 _]; subst.
      clear - D1. revert D1. destruct c as [[] [] [] [] [] [] [] []]; vm_compute; intuition congruence. }
    destruct HD as (c & l & -> & HS & HM & HP).
    assert (DW : forall x, is_space (hd "-"%char x) = false -> drop_while is_space (b ++ x) = x).
    { intros x Q. clear - Q BF. induction BF as [|y b Y BF IH]; cbn [app]; [destruct x as [|z x]; [reflexivity|cbn in *; rewrite Q; reflexivity]|cbn; rewrite Y; exact IH]. }
    assert (SG' : signed (drop_while is_space s) = (false, c :: l)).
    { rewrite E. destruct P as [-> | ->]; rewrite DW by (assumption || reflexivity); cbn [app signed]; [rewrite HM, HP; reflexivity|reflexivity]. }
    rewrite SG' in SG. inversion SG; subst. auto.
Qed.
(** What COLUMNS says counts; otherwise what the terminal says; less than 9 is none. *)
Definition screen (e : env) : Z := match winsize e with Some (col, row) => if tty1 e && (0 <? col) && (0 <? row) then col else -1 | None => -1 end.
Theorem C141_width : forall e,
  (forall s n, columns e = Some s -> says s n -> terminal_width e = if n <? 9 then -1 else n) /\
  ((forall s n, columns e = Some s -> ~ says s n) -> terminal_width e = if screen e <? 9 then -1 else screen e).
Proof.
  intros e. unfold terminal_width.
  set (w := if tty1 e then _ else -1).
  assert (SW : w = screen e) by (unfold w, screen; destruct (winsize e) as [[col row]|]; destruct (tty1 e); cbn [andb]; try reflexivity; destruct (0 <? col); reflexivity).
  rewrite SW. clear w SW. split.
  - intros s n C H. rewrite C. assert (NE : s <> []) by (intros ->; destruct H as (_ & b & p & r & E & _ & _ & H); symmetry in E; apply app_eq_nil in E; destruct E as [_ E]; apply app_eq_nil in E; destruct E as [_ ->]; inversion H).
    pose proof (proj2 (says_iff s n NE) H) as X. destruct s as [|c r]; [congruence|]. destruct (strtol0 (c :: r)) as [t rest]. destruct X as (-> & R & ->).
    destruct (Z.ltb_spec 0 t); [|lia]. destruct (Z.ltb_spec t 1000); [|lia]. reflexivity.
  - intros N. destruct (columns e) as [[|c r]|]; try reflexivity. specialize (N (c :: r)). destruct (strtol0 (c :: r)) as [t rest] eqn:E. destruct rest; [|reflexivity].
    destruct ((0 <? t) && (t <? 1000)) eqn:R; [|reflexivity]. exfalso. apply (N t eq_refl). apply says_iff; [discriminate|]. rewrite E. apply andb_true_iff in R. rewrite !Z.ltb_lt in R. auto.
Qed.
Theorem C141_width_range : forall e, (forall col row, winsize e = Some (col, row) -> 0 <= col < 65536) -> terminal_width e = -1 \/ 9 <= terminal_width e < 65536.
Proof.
  intros e H. unfold terminal_width. match goal with |- context [if ?x <? 9 then _ else _] => set (w := x) end. assert (W : w < 65536); [|destruct (Z.ltb_spec w 9); lia].
  assert (V : (if tty1 e then match winsize e with Some (col, row) => if (0 <? col) && (0 <? row) then col else -1 | None => -1 end else -1) < 65536).
  { destruct (tty1 e); [|lia]. destruct (winsize e) as [[col row]|]; [|lia]. specialize (H _ _ eq_refl). destruct ((0 <? col) && (0 <? row)); lia. }
  unfold w. destruct (columns e) as [[|c r]|]; auto. destruct (strtol0 (c :: r)) as [t [|x rest]]; auto. destruct ((0 <? t) && (t <? 1000)) eqn:R; auto. apply andb_true_iff in R. rewrite !Z.ltb_lt in R. lia.
Qed.
(** Non-vacuity. *)
Definition example_env : env := Env None (Some (L "xterm")) (Some (L " 0x50")) true true (Some (132, 43)).
Example C141_example :
  coloured example_env 290%N /\ ~ coloured (Env (Some (L "t")) (term example_env) None true true None) 290%N /\ ~ coloured (Env None (Some (L "dumb")) None true true None) 290%N /\
  snd (show (Ground, plain) (cfprintf example_env 290%N (L "hi"))) = [("h"%char, Look (Some 1%nat) (Some 1%nat) true false false false); ("i"%char, Look (Some 1%nat) (Some 1%nat) true false false false)] /\
  says (L " 0x50") 80 /\ terminal_width example_env = 80 /\ terminal_width (Env None None (Some (L "5")) true true (Some (132, 43))) = -1 /\ terminal_width (Env None None (Some (L "80c")) true true (Some (132, 43))) = 132.
Proof.
  split; [apply is_vt100_iff; reflexivity|split; [rewrite <- is_vt100_iff; discriminate|split; [rewrite <- is_vt100_iff; discriminate|split; [reflexivity|split; [|repeat split; reflexivity]]]]].
  apply says_iff; [discriminate|]. vm_compute. repeat split.
Qed.
Print Assumptions C141_plain.
Print Assumptions C141_restored.
Print Assumptions C141_history.
Print Assumptions C141_width.
Print Assumptions C141_width_range.
