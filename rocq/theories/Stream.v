(** Stream.v -- formatted input (std::istream >> int64_t / int / unsigned and
    std::string, "C" locale, base 10) as libstdc++ does it since C++11. It models
    the standard library, not a file of /repo.  The state of a stream is the text
    left and failbit; eofbit is an empty rest (both make the next >> fail). *)
From Coq Require Import ZArith List Decimal DecimalZ DecimalPos DecimalFacts Lia.
From Verif Require Import Base Numbers.
Import ListNotations.
Local Open Scope Z_scope.

Record stream := mkS { s_rest : str; s_fail : bool }.
Definition open_str (s : str) : stream := mkS s false.
(** The value of a digit string. *)
Definition digit_val (c : ascii) : Z := Z.of_N (code c) - 48.
Definition digits_val (s : str) : Z := fold_left (fun a c => a * 10 + digit_val c) s 0.
(** The longest number at the start: sign, digits, text left. *)
Definition scan_sign (s : str) : bool * str :=
  match s with
  | c :: r => if Ascii.eqb c "-" then (true, r) else if Ascii.eqb c "+" then (false, r) else (false, s)
  | [] => (false, [])
  end.
Definition scan_number (s : str) : bool * str * str :=
  let '(neg, r) := scan_sign s in (neg, take_while is_digit r, drop_while is_digit r).

(** >> into a signed integer of range [lo, hi]. The result None means that the
    variable is not assigned. *)
Definition extract_int (lo hi : Z) (s : stream) : option Z * stream :=
  if s_fail s then (None, s)
  else match drop_while is_space (s_rest s) with
  | [] => (None, mkS [] true)
  | t =>
    let '(neg, ds, r) := scan_number t in
    match ds with
    | [] => (Some 0, mkS r true)
    | _ => let v := if neg then - digits_val ds else digits_val ds in
           if v <? lo then (Some lo, mkS r true)
           else if hi <? v then (Some hi, mkS r true)
           else (Some v, mkS r false)
    end
  end.
Definition extract_i64 := extract_int (- 2 ^ 63) (2 ^ 63 - 1).
Definition extract_i32 := extract_int (- 2 ^ 31) (2 ^ 31 - 1).
(** >> into an unsigned integer below [m]: a minus sign negates modulo m. *)
Definition extract_unsigned (m : Z) (s : stream) : option Z * stream :=
  if s_fail s then (None, s)
  else match drop_while is_space (s_rest s) with
  | [] => (None, mkS [] true)
  | t =>
    let '(neg, ds, r) := scan_number t in
    match ds with
    | [] => (Some 0, mkS r true)
    | _ => let v := digits_val ds in
           if m <=? v then (Some (m - 1), mkS r true)
           else (Some (if neg then (- v) mod m else v), mkS r false)
    end
  end.
Definition extract_u32 := extract_unsigned (2 ^ 32).
(** istream_iterator<string>: the white space separated words of a text. *)
Fixpoint words_of (s : str) : list str :=
  match s with
  | [] => []
  | c :: r =>
    if is_space c then words_of r
    else match r with
         | [] => [[c]]
         | d :: _ => if is_space d then [c] :: words_of r
                     else match words_of r with [] => [[c]] | w :: ws => (c :: w) :: ws end
         end
  end.

(** A word: not empty, no white space. *)
Definition word (w : str) : Prop := w <> [] /\ forallb (fun c => negb (is_space c)) w = true.
(** What may follow a number: nothing or white space. *)
Definition ends (r : str) : Prop := match r with [] => True | c :: _ => is_space c = true end.

Lemma digits_acc u : forall a, fold_left (fun a c => a * 10 + digit_val c) (uint_str u) (Z.pos a) = Z.pos (Pos.of_uint_acc u a).
Proof.
  induction u; intro a; cbn [uint_str fold_left Pos.of_uint_acc]; auto; rewrite <- IHu; f_equal;
    match goal with |- _ + digit_val ?c = _ => let v := eval vm_compute in (digit_val c) in change (digit_val c) with v end; lia.
Qed.
Lemma digits_val_uint u : digits_val (uint_str u) = Z.of_uint u.
Proof.
  unfold digits_val, Z.of_uint. induction u; cbn [uint_str fold_left Pos.of_uint]; auto;
    match goal with |- context[digit_val ?c] => let v := eval vm_compute in (digit_val c) in change (digit_val c) with v end;
    cbn [Z.mul Z.add Z.of_N]; try (rewrite digits_acc; reflexivity).
Qed.
Lemma to_int_nonnil z : match Z.to_int z with Decimal.Pos u | Decimal.Neg u => uint_str u <> [] end.
Proof.
  destruct z as [|p|p]; cbn [Z.to_int]; [discriminate|..]; pose proof (DecimalPos.Unsigned.to_uint_nonnil p) as H; destruct (Pos.to_uint p); cbn; congruence.
Qed.
Lemma space_not_digit c : is_space c = true -> is_digit c = false.
Proof. unfold is_space, is_digit. rewrite Bool.orb_true_iff, !Bool.andb_true_iff, Bool.andb_false_iff, !N.leb_le, !N.leb_gt, N.eqb_eq. lia. Qed.
Lemma digit_not_space c : is_digit c = true -> is_space c = false.
Proof. destruct (is_space c) eqn:E; auto. apply space_not_digit in E. congruence. Qed.
Lemma uint_digits u : forallb is_digit (uint_str u) = true.
Proof. apply forallb_forall. intros c. apply uint_str_digits. Qed.
Lemma scan_dec z r : ends r -> exists neg ds, scan_number (dec z ++ r) = (neg, ds, r) /\ ds <> [] /\ z = (if neg then - digits_val ds else digits_val ds) /\
  (neg = true -> z < 0) /\ digits_val ds = Z.abs z.
Proof.
  intro Hr. unfold scan_number, dec. pose proof (to_int_nonnil z) as N. pose proof (DecimalZ.of_to z) as O.
  assert (Hr' : take_while is_digit r = [] /\ drop_while is_digit r = r).
  { destruct r as [|c r]; auto. cbn in Hr. cbn. rewrite (space_not_digit c Hr). auto. }
  assert (T : forall u, take_while is_digit (uint_str u ++ r) = uint_str u /\ drop_while is_digit (uint_str u ++ r) = r).
  { intro u. rewrite take_while_app, drop_while_app by apply uint_digits. destruct Hr' as [-> ->]. rewrite app_nil_r. auto. }
  assert (NNeg : forall u, 0 <= Z.of_uint u) by (intro; unfold Z.of_uint; lia).
  destruct (Z.to_int z) as [u|u] eqn:E.
  - assert (Sg : scan_sign (uint_str u ++ r) = (false, uint_str u ++ r)).
    { destruct (uint_str u) as [|c t] eqn:Eu; [congruence|]. cbn. assert (is_digit c = true) by (apply (uint_str_digits u); rewrite Eu; left; auto).
      destruct (Ascii.eqb_spec c "-"); [subst; discriminate|]. destruct (Ascii.eqb_spec c "+"); [subst; discriminate|auto]. }
    rewrite Sg. destruct (T u) as [-> ->]. exists false, (uint_str u). rewrite digits_val_uint. cbn [Z.of_int] in O.
    specialize (NNeg u). repeat split; auto; try discriminate; try lia.
  - change (("-"%char :: uint_str u) ++ r) with ("-"%char :: (uint_str u ++ r)). cbn [scan_sign Ascii.eqb Bool.eqb]. destruct (T u) as [-> ->].
    exists true, (uint_str u). rewrite digits_val_uint. cbn [Z.of_int] in O. specialize (NNeg u).
    assert (z < 0). { destruct z; cbn in E; try discriminate. lia. }
    repeat split; auto; lia.
Qed.
Lemma dec_word z : word (dec z).
Proof.
  unfold word, dec. pose proof (to_int_nonnil z). destruct (Z.to_int z) as [u|u].
  - split; auto. apply forallb_forall. intros c Hc. apply uint_str_digits in Hc. rewrite digit_not_space; auto.
  - split; [discriminate|]. apply forallb_forall. intros c [<-|Hc]; [reflexivity|]. apply uint_str_digits in Hc. rewrite digit_not_space; auto.
Qed.
Lemma word_head w : word w -> exists c t, w = c :: t /\ is_space c = false.
Proof. intros [N F]. destruct w as [|c t]; [congruence|]. exists c, t. split; auto. cbn in F. apply andb_prop in F as [F _]. destruct (is_space c); [discriminate|auto]. Qed.
Lemma skip_word sp w r : forallb is_space sp = true -> word w -> drop_while is_space (sp ++ w ++ r) = w ++ r.
Proof.
  intros H W. rewrite drop_while_app by auto. destruct (word_head w W) as (c & t & -> & E). cbn. rewrite E. auto.
Qed.
Lemma extract_int_dec lo hi sp z r : forallb is_space sp = true -> ends r -> lo <= z <= hi ->
  extract_int lo hi (open_str (sp ++ dec z ++ r)) = (Some z, open_str r).
Proof.
  intros Hs Hr Hz. unfold extract_int, open_str. cbn [s_fail s_rest]. rewrite (skip_word sp (dec z) r Hs (dec_word z)).
  destruct (word_head _ (dec_word z)) as (c & t & Ed & _). destruct (scan_dec z r Hr) as (neg & ds & E & N & V & _).
  rewrite Ed in *. cbn [app] in *. rewrite E. destruct ds as [|d ds]; [congruence|]. cbv zeta. rewrite <- V.
  destruct (Z.ltb_spec z lo); [lia|]. destruct (Z.ltb_spec hi z); [lia|]. auto.
Qed.
Lemma extract_unsigned_dec m sp z r : forallb is_space sp = true -> ends r -> 0 <= z < m ->
  extract_unsigned m (open_str (sp ++ dec z ++ r)) = (Some z, open_str r).
Proof.
  intros Hs Hr Hz. unfold extract_unsigned, open_str. cbn [s_fail s_rest]. rewrite (skip_word sp (dec z) r Hs (dec_word z)).
  destruct (word_head _ (dec_word z)) as (c & t & Ed & _). destruct (scan_dec z r Hr) as (neg & ds & E & N & V & S & A).
  rewrite Ed in *. cbn [app] in *. rewrite E. destruct ds as [|d ds]; [congruence|]. cbv zeta. rewrite A, Z.abs_eq by lia.
  destruct (Z.leb_spec m z); [lia|]. destruct neg; [specialize (S eq_refl); lia|auto].
Qed.
Lemma extract_fails lo hi r : extract_int lo hi (mkS r true) = (None, mkS r true).
Proof. reflexivity. Qed.
(** Words. *)
Lemma words_skip sp r : forallb is_space sp = true -> words_of (sp ++ r) = words_of r.
Proof. induction sp as [|c sp IH]; cbn [forallb app]; auto. intro H. apply andb_prop in H as [H1 H2]. cbn [words_of]. rewrite H1. auto. Qed.
Lemma words_word w r : word w -> ends r -> words_of (w ++ r) = w :: words_of r.
Proof.
  intros [N F] Hr. induction w as [|c w IH]; [congruence|]. cbn [forallb] in F. apply andb_prop in F as [F1 F2]. clear N.
  cbn [app words_of]. destruct (is_space c); [discriminate|]. destruct w as [|d w].
  - cbn [app]. destruct r as [|e r]; auto. cbn in Hr. rewrite Hr. auto.
  - assert (Hd : is_space d = false). { cbn [forallb] in F2. apply andb_prop in F2 as [F2 _]. destruct (is_space d); [discriminate|auto]. }
    specialize (IH ltac:(discriminate) F2). cbn [app] in *. rewrite Hd. rewrite IH. auto.
Qed.
Lemma words_all (s : str) : Forall word (words_of s).
Proof.
  induction s as [|c r IH]; cbn [words_of]; auto. destruct (is_space c) eqn:E; auto.
  assert (W : word [c]) by (split; [discriminate|cbn; rewrite E; auto]). destruct r as [|d r']; [auto|].
  destruct (is_space d); [auto|]. destruct (words_of (d :: r')) as [|w ws]; [auto|]. inversion IH as [|? ? [_ H1] H2]. subst.
  constructor; auto. split; [discriminate|]. cbn [forallb]. rewrite E. auto.
Qed.
