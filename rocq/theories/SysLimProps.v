(** SysLimProps.v -- C146: how much memory there is for a process. *)
From Coq Require Import List ZArith Bool Ascii String Lia.
Import ListNotations.
From Verif Require Import Base SysMemModel SysMemSpec SysMemProps SysCpuModel SysCpuSpec SysCpuProps SysLimModel SysLimSpec.
Open Scope Z_scope.
Open Scope list_scope.

Lemma load_text lines : Forall is_line lines -> load_lines (Some (text_of lines)) = lines.
Proof.
  intros F. unfold load_lines. rewrite fgets_lines by exact F. rewrite map_map. induction F as [|l ls [N _] F IH]; [reflexivity|]. cbn [map]. rewrite IH. f_equal. clear - N.
  induction l as [|c l IH]; cbn [app take_while]; [reflexivity|]. unfold ascii_eqb at 1. destruct (Ascii.eqb_spec c NL) as [->|]; [exfalso; apply N; left; reflexivity|]. cbn [negb]. rewrite IH; [reflexivity|]. intros I. apply N. right. exact I.
Qed.
Lemma find_none w s : ~ occurs w s -> find w s = None.
Proof.
  induction s as [|c s IH]; intros O; cbn [find].
  - destruct (is_prefix w []) eqn:P; [exfalso; apply O, occurs_prefix, P|reflexivity].
  - destruct (is_prefix w (c :: s)) eqn:P; [exfalso; apply O, occurs_prefix, P|]. apply IH. intros X. apply O, occurs_cons, X.
Qed.
Lemma find_here w r : find w (w ++ r) = Some (w ++ r).
Proof. pose proof (is_prefix_self w r) as H. destruct (w ++ r); cbn [find]; rewrite H; reflexivity. Qed.
Lemma atoi_number blanks d rest n : Forall (fun c => is_space c = true) blanks -> written d n -> match rest with [] => True | c :: _ => is_digit c = false end -> atoi (blanks ++ d ++ rest) = n.
Proof.
  intros B W R. destruct (written_decimal _ _ W) as (NE & F & E & _). destruct (take_digits _ _ F R) as [T _]. unfold atoi.
  assert (X : drop_while is_space (blanks ++ d ++ rest) = d ++ rest).
  { induction B as [|c b C B IH]; [|cbn; rewrite C; exact IH]. destruct d as [|c d]; [congruence|]. inversion F; subst. cbn. destruct (digit_not c) as (-> & _); auto. }
  rewrite X. clear X. destruct d as [|c d]; [congruence|]. cbn [app] in *. inversion F as [|? ? C _]; subst. destruct (digit_not c C) as (_ & -> & ->). rewrite T. reflexivity.
Qed.
Lemma name_first name lines n : first_with name lines n -> name_value name lines = Some n.
Proof.
  intros (before & line & after & -> & (b & d & r & -> & B & W & _ & R) & Lt & F). induction F as [|l ls O F IH]; cbn [app name_value].
  - rewrite find_here, skipn_app, skipn_all, Nat.sub_diag. cbn [app skipn]. unfold read_ll. rewrite (atoi_number _ _ _ _ B W R). destruct (written_decimal _ _ W) as (_ & _ & _ & P). f_equal. lia.
  - rewrite find_none by exact O. exact IH.
Qed.
Lemma name_none name lines : Forall (fun l => ~ occurs name l) lines -> name_value name lines = None.
Proof. induction 1 as [|l ls O F IH]; [reflexivity|]. cbn [name_value]. rewrite find_none by exact O. exact IH. Qed.
Lemma first_not_nil name lines n : first_with name lines n -> exists l r, lines = l :: r.
Proof. intros (b & l & a & -> & _). destruct b; eexists _, _; reflexivity. Qed.
Lemma one_first name lines n : Forall is_line lines -> first_with (L name) lines n -> one_field (Some (text_of lines)) name = n.
Proof.
  intros F X. unfold one_field, fields_from_file. rewrite load_text by exact F. pose proof (name_first _ _ _ X) as V. destruct (first_not_nil _ _ _ X) as (l & r & ->). cbn [map fields]. rewrite V. reflexivity.
Qed.
(** Total and used memory of the host, in KiB. *)
Theorem C146_host : forall lines total free, Forall is_line lines -> first_with (L "MemTotal:") lines total -> first_with (L "MemFree:") lines free ->
  host_total (Some (text_of lines)) = total /\ host_used (Some (text_of lines)) = total - free.
Proof.
  intros lines t f F T R. split; [apply (one_first "MemTotal:"); assumption|]. unfold host_used, fields_from_file. rewrite load_text by exact F.
  pose proof (name_first _ _ _ T) as V1. pose proof (name_first _ _ _ R) as V2. destruct (first_not_nil _ _ _ T) as (l & r & ->). cbn [map fields]. rewrite V1, V2. reflexivity.
Qed.
(** What is missing is told apart. *)
Theorem C146_missing : forall lines, Forall is_line lines ->
  host_total None = -1 /\ host_used None = -1 /\ proc_used None = -1 /\ host_total (Some []) = -1 /\ host_used (Some []) = -1 /\
  (Forall (fun l => ~ occurs (L "MemTotal:") l) lines -> host_total (Some (text_of lines)) = -1 /\ (lines <> [] -> host_used (Some (text_of lines)) = -2)) /\
  (forall n, first_with (L "MemTotal:") lines n -> Forall (fun l => ~ occurs (L "MemFree:") l) lines -> host_used (Some (text_of lines)) = -3).
Proof.
  intros lines F. repeat (split; [reflexivity|]). unfold host_total, host_used, one_field, fields_from_file. rewrite load_text by exact F. split.
  - intros N. pose proof (name_none _ _ N) as V. destruct lines as [|l r]; [split; [reflexivity|congruence]|]. cbn [map fields]. rewrite V. split; reflexivity.
  - intros n T N. pose proof (name_first _ _ _ T) as V1. pose proof (name_none _ _ N) as V2. destruct (first_not_nil _ _ _ T) as (l & r & ->). cbn [map fields]. rewrite V1, V2. reflexivity.
Qed.
Lemma env_min v n m : env_says v n -> env_limit v m = match n with Some n => Z.min n m | None => m end.
Proof.
  unfold env_says, env_limit. destruct n as [n|].
  - intros (P & s & -> & W). rewrite (atoi_written _ _ W). cbv zeta. rewrite (proj2 (Z.ltb_lt 0 n)) by lia. reflexivity.
  - intros [-> | [-> | [(s & -> & W)|(s & k & -> & W)]]]; [reflexivity|reflexivity|rewrite (atoi_written _ _ W); reflexivity|].
    destruct (written_decimal _ _ W) as (_ & F & E & P). destruct (take_digits s [] F I) as [T _]. rewrite app_nil_r in T.
    assert (A : atoi ("-"%char :: s) = - k) by (unfold atoi; cbn [drop_while]; change (is_space "-") with false; cbv beta iota zeta delta [ascii_eqb Ascii.eqb Bool.eqb]; rewrite T, E; reflexivity).
    rewrite A. cbv zeta. rewrite (proj2 (Z.ltb_ge 0 (- k))) by lia. reflexivity.
Qed.
Lemma rlimit_min v n m : rlimit_says v n -> resource_limit v m = match n with Some n => Z.min (n / 1024) m | None => m end.
Proof.
  unfold rlimit_says, resource_limit. destruct n as [n|].
  - intros (P & ->). rewrite (proj2 (Z.eqb_neq n (2 ^ 64 - 1))) by lia. rewrite (proj2 (Z.ltb_lt n (2 ^ 63))) by lia. rewrite Z.quot_div_nonneg by lia. reflexivity.
  - intros [-> | ->]; reflexivity.
Qed.
(** What a process may use, in KiB: the least of the total and of all limits. *)
Theorem C146_available : forall lines total hv h pv p dv d av a, Forall is_line lines -> first_with (L "MemTotal:") lines total ->
  env_says hv h -> env_says pv p -> rlimit_says dv d -> rlimit_says av a ->
  least total [h] (host_available hv (Some (text_of lines))) /\
  least total [h; p; option_map (fun b => b / 1024) d; option_map (fun b => b / 1024) a] (proc_available hv pv dv av (Some (text_of lines))).
Proof.
  intros lines t hv h pv p dv d av a F T H P D A. pose proof (one_first "MemTotal:" lines t F T) as E. unfold proc_available, host_available, host_total. rewrite E.
  rewrite (env_min _ _ _ H), (env_min _ _ _ P), (rlimit_min _ _ _ D), (rlimit_min _ _ _ A). clear. unfold least.
    assert (K : forall (o : option Z) (m : Z) (ls : list (option Z)), (m = t \/ In (Some m) ls) /\ m <= t /\ (forall l, In (Some l) ls -> m <= l) ->
      let x := match o with Some n => Z.min n m | None => m end in (x = t \/ In (Some x) (ls ++ [o])) /\ x <= t /\ (forall l, In (Some l) (ls ++ [o]) -> x <= l)).
    { intros o m ls (K1 & K2 & K3). cbv zeta. setoid_rewrite in_app_iff. cbn [In]. destruct o as [n|].
      - split; [destruct (Z.min_spec n m) as [[_ ->]|[_ ->]]; intuition|]. split; [lia|]. intros l [I|[I|[]]]; [apply K3 in I; lia|inversion I; lia].
      - split; [intuition|]. split; [exact K2|]. intros l [I|[I|[]]]; [apply K3 in I; lia|discriminate]. }
    assert (K0 : (t = t \/ In (Some t) []) /\ t <= t /\ (forall l, In (Some l) [] -> t <= l)) by (split; [auto|split; [lia|intros l []]]).
    split; [exact (K h _ _ K0)|].
    set (d2 := option_map (fun b => b / 1024) d). set (a2 := option_map (fun b => b / 1024) a).
    assert (Dm : forall m, match d with Some n => Z.min (n / 1024) m | None => m end = match d2 with Some n => Z.min n m | None => m end) by (intros; unfold d2; destruct d; reflexivity).
    assert (Am : forall m, match a with Some n => Z.min (n / 1024) m | None => m end = match a2 with Some n => Z.min n m | None => m end) by (intros; unfold a2; destruct a; reflexivity).
    rewrite Am, Dm. clearbody d2 a2. clear Dm Am d a.
    exact (K a2 _ _ (K d2 _ _ (K p _ _ (K h _ _ K0)))).
Qed.
(** The memory of the process is the number in the first line with "VmRSS:". *)
Theorem C146_used : forall lines n, Forall is_line lines -> first_with (L "VmRSS:") lines n -> proc_used (Some (text_of lines)) = n.
Proof. intros lines n F X. apply (one_first "VmRSS:"); assumption. Qed.
(** The name is looked for anywhere in a line: a program that is called "VmRSS:<n>" is
    said to use n KiB, whatever it uses (the first line of /proc/self/status is its name). *)
Theorem C146_name_refuted : forall d n rest, written d n -> n < 2 ^ 63 -> (length d <= 900)%nat -> Forall is_line rest ->
  proc_used (Some (text_of ((L "Name:" ++ [TAB] ++ L "VmRSS:" ++ d) :: rest))) = n.
Proof.
  intros d n rest W Lt Le F. destruct (written_decimal _ _ W) as (_ & FD & _ & P). unfold proc_used, one_field, fields_from_file. rewrite load_text.
  - cbn [map fields name_value]. assert (E : find (L "VmRSS:") (L "Name:" ++ [TAB] ++ L "VmRSS:" ++ d) = Some (L "VmRSS:" ++ d)) by reflexivity.
    rewrite E. rewrite skipn_app, skipn_all, Nat.sub_diag. cbn [app skipn]. unfold read_ll. rewrite (atoi_written _ _ W). rewrite Z.min_r, Z.max_r by lia. reflexivity.
  - constructor; [|exact F]. split; [|rewrite !app_length; change (length (L "Name:")) with 5%nat; change (length (L "VmRSS:")) with 6%nat; cbn [length]; clear - Le; lia]. rewrite !in_app_iff. intros [I|[I|[I|I]]]; try (vm_compute in I; intuition discriminate). rewrite Forall_forall in FD. apply FD in I. discriminate.
Qed.
(** Non-vacuity. *)
Definition info : list str := [L "MemTotal:       16000000 kB"; L "MemFree:         4000000 kB"].
Definition status : list str := [L "Name:" ++ [TAB] ++ L "VmRSS:5"; L "VmRSS:      123456 kB"].
Example C146_example :
  host_total (Some (text_of info)) = 16000000 /\ host_used (Some (text_of info)) = 12000000 /\ proc_available (Some (L "900000")) (Some (L "0")) (Some 819200) (Some (2 ^ 64 - 1)) (Some (text_of info)) = 800 /\
  proc_used (Some (text_of status)) = 5 /\ proc_used (Some (text_of (tl status))) = 123456 /\ host_used (Some (text_of (tl info))) = -2 /\ host_used (Some (text_of [hd [] info])) = -3.
Proof. repeat split; reflexivity. Qed.
Example C146_hypotheses : Forall is_line info /\ env_says (Some (L "7")) (Some 7) /\ env_says (Some (L "0")) None /\ rlimit_says (Some 819200) (Some 819200) /\ first_with (L "MemTotal:") info 16000000.
Proof.
  assert (W : forall l, l <> [] -> forallb is_digit l = true -> written l (decimal l)).
  { intros l. induction l as [|c l IH] using rev_ind; [congruence|]. intros _ D. rewrite forallb_app in D. apply andb_true_iff in D. destruct D as [D1 D2]. cbn [forallb] in D2. rewrite andb_true_r in D2.
    assert (E : decimal (l ++ [c]) = 10 * decimal l + (Z.of_nat (nat_of_ascii c) - 48)) by (unfold decimal; rewrite fold_left_app; cbn [fold_left]; rewrite code_nat; reflexivity).
    rewrite E. destruct l as [|x l].
    - exact (WOne c D2).
    - apply WMore; [|exact D2]. apply IH; [discriminate|exact D1]. }
  split; [repeat constructor; try (intros I; vm_compute in I; intuition discriminate); apply Nat.leb_le; reflexivity|].
  split; [split; [lia|exists (L "7"); split; [reflexivity|apply (W (L "7")); [discriminate|reflexivity]]]|].
  split; [right; right; left; exists (L "0"); split; [reflexivity|apply (W (L "0")); [discriminate|reflexivity]]|]. split; [split; [lia|reflexivity]|].
  exists [], (L "MemTotal:       16000000 kB"), [L "MemFree:         4000000 kB"]. split; [reflexivity|]. split; [|split; [lia|constructor]].
  exists (L "       "), (L "16000000"), (L " kB"). split; [reflexivity|]. split; [repeat constructor|]. split; [apply (W (L "16000000")); [discriminate|reflexivity]|]. split; [lia|reflexivity].
Qed.
Print Assumptions C146_host.
Print Assumptions C146_missing.
Print Assumptions C146_available.
Print Assumptions C146_used.
Print Assumptions C146_name_refuted.
