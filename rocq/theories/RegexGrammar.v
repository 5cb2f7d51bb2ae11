(** RegexGrammar.v -- the pure parser accepts exactly the grammar of RegexSpec,
    with enough fuel, and its trees denote the grammar's expressions. *)
From Coq Require Import List Ascii Bool Arith Lia.
Import ListNotations.
From Verif Require Import Base RegexModel RegexSpec RegexAst RegexGen RegexSim RegexSim2.

(** What a tree denotes. *)
Definition chars_then (s : str) (r : re) : re := fold_right (fun c => Seq (Chr c)) r s.
Fixpoint den_atom (a : atom) : re :=
  match a with
  | ABol => Bol | AEol => Eol | AAny => Any
  | ACls neg _ cs => Cls neg cs
  | ALit s => match s with [] => Eps | c :: _ => Chr c end
  | AGrp n l => Grp n (den_alts l)
  end
with den_then (p : piece) (r : re) : re :=
  match p with
  | PAtom a => match a with ALit s => chars_then s r | _ => Seq (den_atom a) r end
  | PStar a => Seq (Star (den_atom a)) r
  | PPlus a => Seq (Plus (den_atom a)) r
  | POpt a => Seq (Opt (den_atom a)) r
  end
with den_branch (b : branch) : re := match b with BNil => Eps | BCons p b => den_then p (den_branch b) end
with den_alts (l : alts_t) : re := match l with One b => den_branch b | More b l => Alt (den_branch b) (den_alts l) end.

(** Fuel, lengths of the rest, and size of the program text. *)
Lemma p_cls_len : forall k prev t em it q, length t <= k -> p_cls prev t = Some (em, it, q) -> length em + 256 * length q + 256 <= 256 * length t.
Proof.
  induction k as [|k IH]; intros prev t em it q Hk E; destruct t as [|c r]; cbn [p_cls] in E; try discriminate; [cbn in Hk; lia|]. cbn [length] in *.
  destruct (Ascii.eqb c "]"); [injection E as <- <- <-; cbn [length]; lia|].
  destruct (Ascii.eqb c "-").
  - destruct r as [|f r']; [discriminate|]. cbn [length] in *. destruct (Ascii.eqb f "]"); [injection E as <- <- <-; change (length (L "-")) with 1; lia|].
    destruct (_ <? _); [discriminate|]. destruct (p_cls f r') as [[[em' it'] q']|] eqn:P; [|discriminate]. injection E as <- <- <-.
    apply IH in P; [|lia]. rewrite app_length. unfold range. rewrite map_length, seq_length. pose proof (nat_lt256 f). lia.
  - destruct (p_cls c r) as [[[em' it'] q']|] eqn:P; [|discriminate]. injection E as <- <- <-. apply IH in P; [|lia]. cbn [length]. lia.
Qed.
Lemma p_class_len : forall t neg em it q, p_class t = Some (neg, em, it, q) -> length em + 256 * length q + 256 <= 256 * length t.
Proof.
  assert (S1 : forall t em it q, p_set t = Some (em, it, q) -> length em + 256 * length q + 256 <= 256 * length t).
  { intros [|p r] em it q E; [discriminate|]. cbn [p_set] in E. destruct (p_cls p r) as [[[em' it'] q']|] eqn:P; [|discriminate]. injection E as <- <- <-.
    apply (p_cls_len (length r)) in P; [|lia]. cbn [length]. lia. }
  intros [|p r] neg em it q E; [discriminate|]. cbn [p_class] in E. destruct (Ascii.eqb p "^").
  - destruct (p_set r) as [[[em' it'] q']|] eqn:P; [|discriminate]. injection E as <- <- <- <-. apply S1 in P. cbn [length]. lia.
  - destruct (p_set (p :: r)) as [[[em' it'] q']|] eqn:P; [|discriminate]. injection E as <- <- <- <-. now apply S1 in P.
Qed.
Definition meta_dec (c : ascii) : bool := existsb (Ascii.eqb c) META.
Lemma meta_of : forall ch, Ascii.eqb ch "^" = false -> Ascii.eqb ch "$" = false -> Ascii.eqb ch "." = false -> Ascii.eqb ch "[" = false -> Ascii.eqb ch "(" = false ->
  (Ascii.eqb ch "|" || Ascii.eqb ch ")")%bool = false -> is_mult ch = false -> Ascii.eqb ch "\" = false -> existsb (Ascii.eqb ch) META = false.
Proof.
  intros ch D1 D2 D3 D4 D5 C6 C7 C8. apply orb_false_iff in C6. destruct C6 as [C6 C6']. unfold is_mult in C7. rewrite !orb_false_iff in C7. destruct C7 as [[C7 C9] C10].
  change META with ["^";"$";".";"[";"(";")";"|";"?";"+";"*";"\"]%char. cbn [existsb]. rewrite D1, D2, D3, D4, D5, C6, C6', C7, C8, C9, C10. reflexivity.
Qed.
Definition szp (b : branch) : nat := match b with BNil => 0 | _ => length (gbranch b None) end.
Lemma szp_le : forall b, length (gbranch b None) <= szp b + 3.
Proof. intros [|p b]; cbn [szp gbranch]; [rewrite len_node; lia|lia]. Qed.
Lemma szp_cons : forall p b, szp (BCons p b) = length (gpiece p None) + szp b.
Proof. intros p [|p' b]; cbn [szp gbranch]; [lia|]. rewrite app_length, (len_piece p (Some 0)). reflexivity. Qed.
Lemma gpiece_len : forall a, length (gpiece (PStar a) None) <= length (gatom a None) + 12 /\ length (gpiece (PPlus a) None) <= length (gatom a None) + 12 /\ length (gpiece (POpt a) None) <= length (gatom a None) + 12.
Proof. intro a. cbn [gpiece]. destruct (simple a); rewrite !app_length, ?len_node, ?(len_atom a (Some 0)), ?(len_atom a (Some 3)); lia. Qed.
Lemma tl_len : forall (t : str) c, pk t = c -> c <> NUL -> length (tl t) + 1 = length t.
Proof. intros [|x t] c H N; cbn in *; [congruence|lia]. Qed.
Ltac three x := destruct x as [[[? ?] ?]| | |] eqn:?; cbn [cbind] in *.
Lemma pa_fuel : forall n,
  (forall paren t np, 6 * length t + 6 <= n -> match pa_reg n paren t np with COk (l, t', _) => length t' <= length t /\ length (galts l None None) + 260 * length t' <= 260 * length t + 6 /\ (paren = true -> length t' < length t) | CNoFuel => False | _ => True end) /\
  (forall b t np, 6 * length t + 5 <= n -> match pa_alts n b t np with COk (l, t', _) => length t' <= length t /\ length (galts l None None) + 260 * length t' <= 260 * length t + length (galts (One b) None None) | CNoFuel => False | _ => True end) /\
  (forall t np, 6 * length t + 4 <= n -> match pa_branch n t np with COk (b, t', _) => length t' <= length t /\ length (galts (One b) None None) + 260 * length t' <= 260 * length t + 6 | CNoFuel => False | _ => True end) /\
  (forall t np, 6 * length t + 3 <= n -> match pa_pieces n t np with COk (b, t', _) => length t' <= length t /\ szp b + 260 * length t' <= 260 * length t | CNoFuel => False | _ => True end) /\
  (forall t np, 6 * length t + 2 <= n -> match pa_piece n t np with COk (p, t', _) => length t' < length t /\ length (gpiece p None) + 260 * length t' <= 260 * length t | CNoFuel => False | _ => True end) /\
  (forall t np, 6 * length t + 1 <= n -> match pa_atom n t np with COk (a, t', _) => length t' < length t /\ length (gatom a None) + 260 * length t' <= 260 * length t | CNoFuel => False | _ => True end).
Proof.
  induction n as [|n (IR & IA & IB & IPS & IP & IT)]; [repeat split; intros; lia|].
  split; [|split; [|split; [|split; [|split]]]].
  - intros paren t np H. cbn [pa_reg]. destruct (paren && (NSUBEXP <=? np))%bool; [auto|].
    specialize (IB t (if paren then S np else np) ltac:(lia)). three (pa_branch n t (if paren then S np else np)); auto.
    specialize (IA b s n0 ltac:(lia)). three (pa_alts n b s n0); auto.
    destruct paren.
    + destruct (Ascii.eqb_spec (pk s0) ")") as [Q|]; [|auto]. pose proof (tl_len _ _ Q ltac:(discriminate)). lia.
    + destruct s0; [|auto]. cbn [length] in *. repeat split; try lia.
  - intros b t np H. cbn [pa_alts]. destruct (Ascii.eqb_spec (pk t) "|") as [Q|]; [|lia].
    pose proof (tl_len _ _ Q ltac:(discriminate)) as TL.
    specialize (IB (tl t) np ltac:(lia)). three (pa_branch n (tl t) np); auto.
    specialize (IA b0 s n0 ltac:(lia)). three (pa_alts n b0 s n0); auto.
    cbn [galts] in *. rewrite !app_length, !len_node in *. cbn [plusk]. lia.
  - intros t np H. cbn [pa_branch]. specialize (IPS t np ltac:(lia)). three (pa_pieces n t np); auto.
    cbn [galts]. rewrite app_length, len_node. pose proof (szp_le b). lia.
  - intros t np H. cbn [pa_pieces]. destruct (stop t); [cbn [szp]; lia|].
    specialize (IP t np ltac:(lia)). three (pa_piece n t np); auto.
    specialize (IPS s n0 ltac:(lia)). three (pa_pieces n s n0); auto. rewrite szp_cons. lia.
  - intros t np H. cbn [pa_piece]. specialize (IT t np ltac:(lia)). three (pa_atom n t np); auto.
    destruct (is_mult (pk s)) eqn:M; cbn [negb]; [|cbn [gpiece]; lia].
    destruct (_ && _)%bool; [auto|]. destruct (is_mult (pk (tl s))); [auto|].
    assert (TL : length (tl s) + 1 = length s) by (apply (tl_len s (pk s)); [reflexivity|intro Q; rewrite Q in M; discriminate]).
    pose proof (gpiece_len a) as (G1 & G2 & G3).
    destruct (Ascii.eqb (pk s) "*"); [|destruct (Ascii.eqb (pk s) "+")]; lia.
  - intros t np H. cbn [pa_atom]. destruct t as [|ch t]; [auto|]. cbn [length] in *.
    destruct (Ascii.eqb ch "^") eqn:D1; [cbn [gatom]; rewrite len_node; lia|]. destruct (Ascii.eqb ch "$") eqn:D2; [cbn [gatom]; rewrite len_node; lia|]. destruct (Ascii.eqb ch ".") eqn:D3; [cbn [gatom]; rewrite len_node; lia|].
    destruct (Ascii.eqb ch "[") eqn:D4.
    { destruct (p_class t) as [[[[neg em] it] q]|] eqn:K; [|auto]. apply p_class_len in K. cbn [gatom]. rewrite !app_length, len_node. cbn [length]. lia. }
    destruct (Ascii.eqb ch "(") eqn:D5.
    { specialize (IR true t np ltac:(lia)). destruct (pa_reg n true t np) as [[[l t'] np']| | |]; cbn [cbind]; auto. cbn [gatom]. rewrite !app_length, !len_node, (len_alts l (Some 0) (Some 0)). lia. }
    destruct (Ascii.eqb ch "|" || Ascii.eqb ch ")")%bool eqn:C6; [auto|].
    destruct (is_mult ch) eqn:C7; [auto|].
    destruct (Ascii.eqb ch "\") eqn:C8.
    { destruct t as [|x t]; [auto|]. cbn [gatom]. rewrite !app_length, len_node. cbn [length]. lia. }
    pose proof (p_run_pos ch t (meta_of ch D1 D2 D3 D4 D5 C6 C7 C8)) as PP. rewrite skipn_length. cbn [gatom]. rewrite !app_length, len_node, firstn_length. cbn [length]. lia.
Qed.
