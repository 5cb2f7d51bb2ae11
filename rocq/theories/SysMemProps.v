(** SysMemProps.v -- C142: the memory of the machine. *)
From Coq Require Import List ZArith Bool Ascii String Lia.
Import ListNotations.
From Verif Require Import Base SysMemModel SysMemSpec.
Open Scope Z_scope.
Open Scope list_scope.

Lemma fgets_line l : forall room acc rest, ~ In NL l -> (length l + 2 <= room)%nat ->
  fgets_all room acc (l ++ NL :: rest) = (rev acc ++ l ++ [NL]) :: fgets_all 1023 [] rest.
Proof.
  induction l as [|c l IH]; intros room acc rest N R; cbn [app length] in *.
  - destruct room as [|[|r]]; try lia. cbn [fgets_all]. change (ascii_eqb NL NL) with true. cbv iota. cbn [rev]. reflexivity.
  - destruct room as [|[|r]]; try lia. cbn [fgets_all]. destruct (ascii_eqb c NL) eqn:E; [apply Ascii.eqb_eq in E; subst; exfalso; apply N; left; reflexivity|].
    rewrite IH; [cbn [rev]; rewrite <- !app_assoc; reflexivity|intros I; apply N; right; exact I|lia].
Qed.
Lemma text_cons l ls : text_of (l :: ls) = l ++ NL :: text_of ls.
Proof. unfold text_of. cbn [map concat]. rewrite <- app_assoc. reflexivity. Qed.
Lemma fgets_lines lines : Forall is_line lines -> fgets_all 1023 [] (text_of lines) = map (fun l => l ++ [NL]) lines.
Proof.
  induction 1 as [|l ls [N R] F IH]; [reflexivity|]. rewrite text_cons, fgets_line; [rewrite IH; reflexivity|exact N|clear - R; lia].
Qed.

Lemma code_nat c : Z.of_N (code c) = Z.of_nat (nat_of_ascii c).
Proof. unfold code, nat_of_ascii. rewrite N_nat_Z. reflexivity. Qed.
Lemma digit_range c : is_digit c = true -> 0 <= Z.of_nat (nat_of_ascii c) - 48 <= 9.
Proof. unfold is_digit. rewrite <- code_nat, andb_true_iff, !N.leb_le. lia. Qed.
Lemma written_decimal d n : written d n -> d <> [] /\ Forall (fun c => is_digit c = true) d /\ decimal d = n /\ 0 <= n.
Proof.
  induction 1 as [c D|l c n W (I1 & I2 & I3 & I4) D].
  - split; [discriminate|split; [repeat constructor; exact D|]]. pose proof (digit_range _ D). unfold decimal. cbn [fold_left]. rewrite code_nat. split; lia.
  - split; [destruct l; discriminate|split; [apply Forall_app; repeat constructor; assumption|]]. pose proof (digit_range _ D). unfold decimal in *. rewrite fold_left_app, I3. cbn [fold_left]. rewrite code_nat. split; lia.
Qed.
Lemma take_digits d rest : Forall (fun c => is_digit c = true) d -> match rest with [] => True | c :: _ => is_digit c = false end -> take_while is_digit (d ++ rest) = d /\ drop_while is_digit (d ++ rest) = rest.
Proof.
  induction 1 as [|c d D F IH]; intros R; cbn [app].
  - destruct rest as [|c r]; [auto|]. cbn. rewrite R. auto.
  - destruct (IH R) as [A B]. cbn. rewrite D, A, B. auto.
Qed.
Lemma digit_not c : is_digit c = true -> is_space c = false /\ ascii_eqb c "-" = false /\ ascii_eqb c "+" = false.
Proof. destruct c as [[] [] [] [] [] [] [] []]; vm_compute; intuition congruence. Qed.
Lemma scan_number blanks d rest n : Forall (fun c => is_space c = true) blanks -> written d n -> n < 2 ^ 64 -> match rest with [] => True | c :: _ => is_digit c = false end ->
  scan_lu (blanks ++ d ++ rest) = Some (n, rest).
Proof.
  intros B W L R. destruct (written_decimal _ _ W) as (NE & F & E & NN). destruct (take_digits _ _ F R) as [T D]. unfold scan_lu.
  assert (X : drop_while is_space (blanks ++ d ++ rest) = d ++ rest).
  { induction B as [|c b C B IH]; [|cbn; rewrite C; exact IH]. destruct d as [|c d]; [congruence|]. inversion F; subst. cbn. destruct (digit_not c) as (-> & _); auto. }
  rewrite X. clear X. destruct d as [|c d]; [congruence|]. cbn [app] in *. inversion F as [|? ? C _]; subst. destruct (digit_not c C) as (_ & -> & ->). rewrite T, D. unfold ulong_of. destruct (Z.leb_spec (2 ^ 64) (decimal (c :: d))); [lia|]. reflexivity.
Qed.
Lemma prefix_line key l r : ~ In NL key -> is_prefix key (l ++ NL :: r) = is_prefix key l.
Proof.
  revert l. induction key as [|k key IH]; intros l N; [reflexivity|]. destruct l as [|c l]; cbn [is_prefix app].
  - destruct (Ascii.eqb_spec k NL) as [->|]; [exfalso; apply N; left; reflexivity|reflexivity].
  - rewrite IH; [reflexivity|]. intros I. apply N. right. exact I.
Qed.
Lemma says_scan key line n : says key line n -> sscanf_key key (line ++ [NL]) = Some n.
Proof.
  intros (b & d & r & -> & B & W & L & R). unfold sscanf_key. rewrite <- !app_assoc, is_prefix_self, skipn_app, skipn_all, Nat.sub_diag. cbn [app skipn].
  rewrite scan_number with (n := n); auto. destruct r; [reflexivity|exact R].
Qed.

Definition G (f : str -> option Z -> option Z) (ks : list str) (hs : list (option Z)) : list (option Z) := map (fun p => f (fst p) (snd p)) (combine ks hs).
Definition step (line : str) (k : str) (h : option Z) : option Z := match h with Some v => Some v | None => sscanf_key k line end.
Lemma one_line_G ks : forall hs line, one_line ks hs line = G (step line) ks hs.
Proof. induction ks as [|k ks IH]; intros [|h hs] line; try reflexivity. cbn [one_line]. unfold G. cbn [combine map fst snd]. rewrite IH. reflexivity. Qed.
Lemma G_G f g ks : forall hs, G f ks (G g ks hs) = G (fun k h => f k (g k h)) ks hs.
Proof. unfold G. induction ks as [|k ks IH]; intros [|h hs]; try reflexivity. cbn [combine map fst snd]. rewrite IH. reflexivity. Qed.
Lemma fold_G ks ls : forall hs, length hs = length ks -> fold_left (one_line ks) ls hs = G (fun k h => fold_left (fun h l => step l k h) ls h) ks hs.
Proof.
  induction ls as [|l ls IH]; intros hs H; cbn [fold_left].
  - unfold G. revert hs H. induction ks as [|k ks IK]; intros [|h hs] H; try discriminate; [reflexivity|]. cbn. rewrite <- IK; [reflexivity|]. inversion H; reflexivity.
  - rewrite one_line_G, IH; [apply G_G|]. unfold G. rewrite map_length, combine_length, H. apply Nat.min_id.
Qed.
Definition value_for (key : str) (lines : list str) : option Z := fold_left (fun h l => step l key h) (map (fun l => l ++ [NL]) lines) None.
Lemma value_some ls key v : fold_left (fun h l => step l key h) ls (Some v) = Some v.
Proof. induction ls; auto. Qed.
Lemma value_first key lines n : ~ In NL key -> first_line key lines n -> value_for key lines = Some n.
Proof.
  intros N (b & l & a & -> & H & F). unfold value_for. induction F as [|x b X F IH]; cbn [app map fold_left step].
  - rewrite (says_scan _ _ _ H). apply value_some.
  - unfold sscanf_key. rewrite prefix_line, X by exact N. exact IH.
Qed.
Lemma value_absent key lines : ~ In NL key -> absent key lines -> value_for key lines = None.
Proof. intros N F. unfold value_for. induction F as [|x b X F IH]; [reflexivity|]. cbn [map fold_left step]. unfold sscanf_key. rewrite prefix_line, X by exact N. exact IH. Qed.
Lemma new_format_eq lines old : Forall is_line lines ->
  new_format (text_of lines) old = match map (fun k => value_for k lines) keys with
    | [Some t; Some f; Some b; Some c; Some st; Some sf] => (true, Memory (t / 1024) ((f + b + c) mod 2 ^ 64 / 1024) (st / 1024) (sf / 1024))
    | _ => (false, old) end.
Proof. intros F. unfold new_format. rewrite (fgets_lines _ F), fold_G by reflexivity. reflexivity. Qed.
Lemma keys_ok : Forall (fun k => ~ In NL k) keys.
Proof. unfold keys. cbn [map]. repeat (apply Forall_cons; [let I := fresh in intros I; vm_compute in I; intuition discriminate|]). apply Forall_nil. Qed.

(** The release. *)
Lemma written_pos d n : written d n -> hd "."%char d <> "0"%char -> 1 <= n.
Proof.
  induction 1 as [c D|l c n W IH D]; intros N.
  - cbn [hd] in N. pose proof (digit_range _ D). assert (Z.of_nat (nat_of_ascii c) <> 48); [|lia]. intros E. apply N. rewrite <- (ascii_nat_embedding c). replace (nat_of_ascii c) with 48%nat by lia. reflexivity.
  - pose proof (digit_range _ D). assert (X : 1 <= n); [|lia]. apply IH. destruct l; [inversion W; destruct l; discriminate|exact N].
Qed.
Lemma written_one d n : written d n -> hd "."%char d <> "0"%char -> n <= 9 -> exists c, d = [c] /\ is_digit c = true /\ digit_of (Some c) = n.
Proof.
  intros W N L. destruct W as [c D|l c n W D].
  - exists c. cbn [digit_of]. rewrite D, code_nat. auto.
  - pose proof (digit_range _ D). assert (1 <= n); [|lia]. eapply written_pos; [exact W|]. destruct l; [inversion W; destruct l; discriminate|exact N].
Qed.
Lemma written_first d n : written d n -> exists c r, d = c :: r /\ is_digit c = true /\ (r = [] -> digit_of (Some c) = n).
Proof.
  intros W. destruct (written_decimal _ _ W) as (NE & F & E & _). destruct d as [|c r]; [congruence|]. inversion F as [|? ? D _]; subst. exists c, r. split; [reflexivity|split; [exact D|intros ->]].
  cbn [digit_of]. rewrite D. unfold decimal. cbn. lia.
Qed.
Lemma release_one major minor r : release_of major minor r -> major <= 9 -> (3 <= length r)%nat /\ digit_of (nth_error r 0) = major /\ (minor <= 9 -> nth_error r 2 <> Some "0"%char -> digit_of (nth_error r 2) = minor).
Proof.
  intros (a & b & rest & -> & WA & WB & H) Le. destruct (written_one _ _ WA H Le) as (c & -> & D & V). destruct (written_first _ _ WB) as (e & b' & -> & D2 & V2).
  split; [cbn; lia|split; [exact V|]]. intros LB N. cbn [app nth_error] in *. assert (N' : hd "."%char (e :: b') <> "0"%char) by (cbn [hd]; congruence).
  destruct (written_one _ _ WB N' LB) as (c2 & E & D3 & V3). inversion E; subst; reflexivity.
Qed.

Definition entries (lines : list str) (t f b c st sf : Z) : Prop :=
  first_line (L "MemTotal:") lines t /\ first_line (L "MemFree:") lines f /\ first_line (L "Buffers:") lines b /\ first_line (L "Cached:") lines c /\
  first_line (L "SwapTotal:") lines st /\ first_line (L "SwapFree:") lines sf.
Theorem C142_memory : forall major minor r lines old t f b c st sf, release_of major minor r -> 3 <= major <= 9 -> Forall is_line lines -> entries lines t f b c st sf -> f + b + c < 2 ^ 64 ->
  query_memory (Some r) (Some (text_of lines)) old = (true, Memory (t / 1024) ((f + b + c) / 1024) (st / 1024) (sf / 1024)).
Proof.
  intros major minor r lines old t f b c st sf R M F (H1 & H2 & H3 & H4 & H5 & H6) S. destruct (release_one _ _ _ R ltac:(lia)) as (LR & D0 & _). unfold query_memory.
  rewrite (proj2 (Nat.leb_le _ _) LR), D0. rewrite (proj2 (Z.leb_le 3 major)) by lia. cbn [orb]. rewrite (new_format_eq _ _ F).
  assert (VF : forall k n, In k keys -> first_line k lines n -> value_for k lines = Some n) by (intros k n I; apply value_first; exact (proj1 (Forall_forall _ _) keys_ok _ I)).
  unfold keys in *. cbn [map In] in *.
  apply VF in H1 as V1; [|tauto]. apply VF in H2 as V2; [|tauto]. apply VF in H3 as V3; [|tauto]. apply VF in H4 as V4; [|tauto]. apply VF in H5 as V5; [|tauto]. apply VF in H6 as V6; [|tauto].
  rewrite V1, V2, V3, V4, V5, V6.
  assert (P : forall k n, first_line k lines n -> 0 <= n) by (intros k n (x & y & z & _ & (u & v & w & _ & _ & W & _) & _); apply written_decimal in W; tauto).
  rewrite Z.mod_small; [reflexivity|]. pose proof (P _ _ H2). pose proof (P _ _ H3). pose proof (P _ _ H4). lia.
Qed.
(** If a line is missing nothing is changed. *)
Theorem C142_missing : forall r lines old key, Forall is_line lines -> In key keys -> absent key lines ->
  3 <= digit_of (nth_error r 0) -> (3 <= length r)%nat -> query_memory (Some r) (Some (text_of lines)) old = (false, old).
Proof.
  intros r lines old key F I A D LR. unfold query_memory. rewrite (proj2 (Nat.leb_le _ _) LR), (proj2 (Z.leb_le 3 _) D). cbn [orb]. rewrite (new_format_eq _ _ F).
  assert (V : value_for key lines = None) by (apply value_absent; [exact (proj1 (Forall_forall _ _) keys_ok _ I)|exact A]).
  unfold keys in *. cbn [map In] in *. repeat match goal with H : _ \/ _ |- _ => destruct H as [<-|H] end; try contradiction; rewrite V;
  repeat match goal with |- context [match value_for ?k lines with _ => _ end] => destruct (value_for k lines); try reflexivity end; reflexivity.
Qed.
(** A kernel whose major number has two digits is taken for one before 2.6, and its
    /proc/meminfo is refused. *)
Theorem C142_release_refuted : forall major minor r lines old t f b c st sf first second rest, release_of major minor r -> 10 <= major <= 29 -> Forall is_line lines -> entries lines t f b c st sf ->
  lines = first :: second :: rest -> says (L "MemFree:") second f ->
  query_memory (Some r) (Some (text_of lines)) old = (false, old).
Proof.
  intros major minor r lines old t f b c st sf first second rest (a & bb & q & -> & WA & WB & H) M F _ -> (bl & d & z & E & _). unfold query_memory.
  assert (A : exists x y, a = [x; y] /\ digit_of (Some x) <= 2).
  { destruct WA as [x D|l x n W D]; [pose proof (digit_range _ D); lia|]. pose proof (digit_range _ D). assert (HN : hd "."%char l <> "0"%char) by (destruct l; [discriminate|exact H]).
    destruct (written_one _ _ W HN ltac:(lia)) as (y & -> & D2 & V). exists y, x. split; [reflexivity|lia]. }
  destruct A as (x & y & -> & DX). destruct (written_first _ _ WB) as (e & b' & -> & _).
  rewrite (proj2 (Nat.leb_le 3 _)) by (cbn; lia). cbn [app nth_error]. rewrite (proj2 (Z.leb_gt 3 _)) by lia. cbn [orb]. change (digit_of (Some "."%char)) with 0. change (6 <=? 0) with false. rewrite andb_false_r.
  unfold old_format. rewrite (fgets_lines _ F). cbn [map]. rewrite text_cons. replace (skipn (length (first ++ [NL])) (first ++ NL :: text_of (second :: rest))) with (text_of (second :: rest)).
  2:{ replace (first ++ NL :: text_of (second :: rest)) with ((first ++ [NL]) ++ text_of (second :: rest)) by (rewrite <- app_assoc; reflexivity). rewrite skipn_app, skipn_all, Nat.sub_diag. reflexivity. }
  rewrite text_cons, E. reflexivity.
Qed.
(** Before 2.6 (bytes, not kilobytes). *)
Inductive numbers : list Z -> str -> Prop :=
| NNil : numbers [] []
| NCons b d n ns s : b <> [] -> Forall (fun c => is_space c = true) b -> written d n -> n < 2 ^ 64 -> numbers ns s -> numbers (n :: ns) (b ++ d ++ s).
Lemma space_not_digit c : is_space c = true -> is_digit c = false.
Proof. destruct c as [[] [] [] [] [] [] [] []]; vm_compute; intuition congruence. Qed.
Lemma scan_numbers ns s : numbers ns s -> forall rest, match rest with [] => True | c :: _ => is_digit c = false end -> scan_many (length ns) (s ++ rest) = (ns, rest).
Proof.
  induction 1 as [|b d n ns s NE B W Lt N IH]; intros rest R; [reflexivity|]. cbn [length scan_many]. rewrite <- !app_assoc. rewrite scan_number with (n := n); auto; [rewrite IH by exact R; reflexivity|].
  destruct N as [|b2 d2 n2 ns2 s2 NE2 B2 _ _ _]; [exact R|]. destruct b2 as [|c b2]; [congruence|]. inversion B2; subst. cbn. apply space_not_digit. assumption.
Qed.
Theorem C142_old : forall minor r header old tp x1 ap x2 bm cm m tv x3 av s rest, release_of 2 minor r -> minor < 6 -> 1 <= minor -> nth_error r 2 <> Some "0"%char -> is_line header ->
  numbers [tp; x1; ap; x2; bm; cm] m -> numbers [tv; x3; av] s -> match rest with [] => True | c :: _ => is_digit c = false end -> ap + bm + cm < 2 ^ 64 ->
  query_memory (Some r) (Some (header ++ NL :: L "Mem:" ++ m ++ NL :: L "Swap:" ++ s ++ rest)) old =
    (true, Memory (tp / 1024 / 1024) ((ap + bm + cm) / 1024 / 1024) (tv / 1024 / 1024) (av / 1024 / 1024)).
Proof.
  intros minor r header old tp x1 ap x2 bm cm m tv x3 av s rest R L6 L1 N0 [HN HL] NM NS RR S. unfold query_memory.
  destruct (release_one _ _ _ R ltac:(lia)) as (LR & D0 & D2). specialize (D2 ltac:(lia) N0).
  rewrite (proj2 (Nat.leb_le _ _) LR), D0, D2. rewrite (proj2 (Z.leb_gt 6 minor)) by lia. change (3 <=? 2) with false. cbn [orb]. rewrite andb_false_r.
  unfold old_format. rewrite fgets_line by (auto; lia). cbn [rev app].
  match goal with |- context [skipn _ (header ++ NL :: ?x)] => set (z := x); replace (skipn (length (header ++ [NL])) (header ++ NL :: z)) with z end.
  2:{ replace (header ++ NL :: z) with ((header ++ [NL]) ++ z) by (rewrite <- app_assoc; reflexivity). rewrite skipn_app, skipn_all, Nat.sub_diag. reflexivity. }
  cbv beta iota zeta. unfold z. clear z. rewrite is_prefix_self. cbv iota. change (skipn 4 (L "Mem:" ++ m ++ NL :: L "Swap:" ++ s ++ rest)) with (m ++ NL :: L "Swap:" ++ s ++ rest).
  change 6%nat with (length [tp; x1; ap; x2; bm; cm]). rewrite (scan_numbers _ _ NM) by reflexivity. cbv iota beta zeta.
  change (drop_while is_space (NL :: L "Swap:" ++ s ++ rest)) with (L "Swap:" ++ s ++ rest). rewrite is_prefix_self. cbv iota. change (skipn 5 (L "Swap:" ++ s ++ rest)) with (s ++ rest).
  change 3%nat with (length [tv; x3; av]). rewrite (scan_numbers _ _ NS) by exact RR. cbv iota beta zeta.
  assert (P : forall ns u, numbers ns u -> Forall (fun n => 0 <= n) ns) by (induction 1 as [|? ? ? ? ? ? ? W]; constructor; auto; apply written_decimal in W; tauto).
  pose proof (P _ _ NM) as Q. repeat match goal with H : Forall _ (_ :: _) |- _ => inversion H; clear H; subst end. rewrite Z.mod_small by lia. reflexivity.
Qed.
(** Non-vacuity. *)
Definition example_lines : list str := map L ["MemTotal:       16384000 kB"; "MemFree:         2048000 kB"; "MemAvailable:    9000000 kB"; "Buffers:          102400 kB"; "Cached:          4096000 kB"; "SwapCached:           12 kB"; "SwapTotal:       2097148 kB"; "SwapFree:        2097140 kB"]%string.
Lemma written_check d : d <> [] -> forallb is_digit d = true -> written d (decimal d).
Proof.
  induction d as [|c d IH] using rev_ind; intros N F; [congruence|]. rewrite forallb_app in F. apply andb_true_iff in F. destruct F as [F1 F2]. cbn in F2. rewrite andb_true_r in F2.
  unfold decimal. rewrite fold_left_app. cbn [fold_left]. rewrite code_nat. destruct d as [|x d]; [apply (WOne c F2)|]. apply WMore; [apply IH; [discriminate|exact F1]|exact F2].
Qed.
Lemma line_check l : forallb (fun c => negb (ascii_eqb c NL)) l = true -> (length l <=? 1000)%nat = true -> is_line l.
Proof. intros A B. split; [|apply Nat.leb_le; exact B]. intros I. rewrite forallb_forall in A. apply A in I. discriminate. Qed.
Example C142_example :
  Forall is_line example_lines /\ release_of 5 15 (L "5.15.0-91-generic") /\ release_of 10 1 (L "10.1.2") /\ entries example_lines 16384000 2048000 102400 4096000 2097148 2097140 /\
  query_memory (Some (L "5.15.0-91-generic")) (Some (text_of example_lines)) (Memory 0 0 0 0) = (true, Memory 16000 6100 2047 2047) /\
  query_memory (Some (L "10.1.2")) (Some (text_of example_lines)) (Memory 0 0 0 0) = (false, Memory 0 0 0 0).
Proof.
  split; [|split; [|split; [|split; [|split; reflexivity]]]].
  - unfold example_lines. cbn [map]. repeat (apply Forall_cons; [apply line_check; reflexivity|]). apply Forall_nil.
  - exists (L "5"), (L "15"), (L ".0-91-generic"). split; [reflexivity|split; [apply (written_check (L "5")); [discriminate|reflexivity]|split; [apply (written_check (L "15")); [discriminate|reflexivity]|discriminate]]].
  - exists (L "10"), (L "1"), (L ".2"). split; [reflexivity|split; [apply (written_check (L "10")); [discriminate|reflexivity]|split; [apply (written_check (L "1")); [discriminate|reflexivity]|discriminate]]].
  - assert (X : forall b l a k sp d n, example_lines = b ++ l :: a -> forallb (fun x => negb (is_prefix k x)) b = true -> l = k ++ sp ++ d ++ L " kB" -> forallb is_space sp = true -> d <> [] -> forallb is_digit d = true -> decimal d = n -> n < 2 ^ 64 -> first_line k example_lines n).
    { intros b l a k sp d n E1 E2 E3 E4 E5 E6 E7 E8. exists b, l, a. split; [exact E1|split; [|rewrite forallb_forall in E2; apply Forall_forall; intros z Z; apply E2 in Z; apply negb_true_iff; exact Z]].
      exists sp, d, (L " kB"). split; [exact E3|split; [apply Forall_forall; rewrite forallb_forall in E4; exact E4|split; [rewrite <- E7; apply written_check; assumption|split; [exact E8|reflexivity]]]]. }
    assert (FS : forall i, example_lines = firstn i example_lines ++ skipn i example_lines) by (intros; symmetry; apply firstn_skipn).
    split; [|split; [|split; [|split; [|split]]]].
    + eapply (X _ _ _ _ (L "       ") (L "16384000")); [exact (FS 0%nat)|try reflexivity; discriminate..].
    + eapply (X _ _ _ _ (L "         ") (L "2048000")); [exact (FS 1%nat)|try reflexivity; discriminate..].
    + eapply (X _ _ _ _ (L "          ") (L "102400")); [exact (FS 3%nat)|try reflexivity; discriminate..].
    + eapply (X _ _ _ _ (L "          ") (L "4096000")); [exact (FS 4%nat)|try reflexivity; discriminate..].
    + eapply (X _ _ _ _ (L "       ") (L "2097148")); [exact (FS 6%nat)|try reflexivity; discriminate..].
    + eapply (X _ _ _ _ (L "        ") (L "2097140")); [exact (FS 7%nat)|try reflexivity; discriminate..].
Qed.
(** Numbers that the kernel does not write: one too great counts as the greatest, one
    with a minus is taken modulo 2^64. *)
Theorem C142_number : forall blanks d rest n, Forall (fun c => is_space c = true) blanks -> written d n -> match rest with [] => True | c :: _ => is_digit c = false end ->
  (2 ^ 64 <= n -> scan_lu (blanks ++ d ++ rest) = Some (2 ^ 64 - 1, rest)) /\
  (0 < n < 2 ^ 64 -> scan_lu (blanks ++ L "-" ++ d ++ rest) = Some (2 ^ 64 - n, rest)).
Proof.
  intros blanks d rest n B W R. destruct (written_decimal _ _ W) as (NE & F & E & NN). destruct (take_digits _ _ F R) as [T D].
  assert (X : forall s, match s with c :: _ => is_space c = false | [] => True end -> drop_while is_space (blanks ++ s) = s).
  { intros s H. induction B as [|c b C B IH]; [|cbn; rewrite C; exact IH]. destruct s as [|c s]; [reflexivity|]. cbn. rewrite H. reflexivity. }
  unfold scan_lu. split; intros Lt.
  - rewrite X by (destruct d as [|c d]; [congruence|]; inversion F; subst; cbn [app]; apply digit_not; assumption). destruct d as [|c d]; [congruence|]. cbn [app] in *. inversion F as [|? ? C _]; subst. destruct (digit_not c C) as (_ & -> & ->). rewrite T, D. unfold ulong_of.
    rewrite (proj2 (Z.leb_le (2 ^ 64) (decimal (c :: d)))) by lia. reflexivity.
  - rewrite X by reflexivity. change (L "-" ++ d ++ rest) with ("-"%char :: d ++ rest). cbv beta iota zeta delta [ascii_eqb Ascii.eqb Bool.eqb]. rewrite T, D. destruct d as [|c d]; [congruence|]. unfold ulong_of. rewrite E.
    rewrite (proj2 (Z.leb_gt (2 ^ 64) n)) by lia. f_equal. f_equal. rewrite Z.mod_opp_l_nz by (rewrite ?Z.mod_small; lia). rewrite Z.mod_small by lia. reflexivity.
Qed.
Print Assumptions C142_memory.
Print Assumptions C142_missing.
Print Assumptions C142_release_refuted.
Print Assumptions C142_old.
Print Assumptions C142_number.
