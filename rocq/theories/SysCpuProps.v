(** SysCpuProps.v -- C143: how many processors there are. *)
From Coq Require Import List ZArith Bool Ascii String Lia.
Import ListNotations.
From Verif Require Import Base SysMemModel SysMemSpec SysMemProps SysCpuModel SysCpuSpec.
Open Scope Z_scope.
Open Scope list_scope.

Lemma occurs_prefix w s : is_prefix w s = true -> occurs w s.
Proof. intros H. apply is_prefix_app in H. destruct H as [r ->]. exists [], r. reflexivity. Qed.
Lemma occurs_cons w c s : occurs w s -> occurs w (c :: s).
Proof. intros (a & b & ->). exists (c :: a), b. reflexivity. Qed.
(** Text without the word is skipped up to the end of the line. *)
Lemma find_skip w l rest : w <> [] -> ~ In NL w -> ~ occurs w l -> find w (l ++ NL :: rest) = find w rest.
Proof.
  intros NE N. induction l as [|c l IH]; intros O; cbn [app find].
  - destruct w as [|x w]; [congruence|]. cbn [is_prefix]. destruct (Ascii.eqb_spec x NL) as [->|]; [exfalso; apply N; left; reflexivity|reflexivity].
  - change (c :: l ++ NL :: rest) with ((c :: l) ++ NL :: rest). rewrite prefix_line by exact N. destruct (is_prefix w (c :: l)) eqn:P; [exfalso; apply O, occurs_prefix, P|]. apply IH. intros X. apply O, occurs_cons, X.
Qed.
Lemma find_char c a rest : ~ In c a -> find [c] (a ++ c :: rest) = Some (c :: rest).
Proof.
  induction a as [|x a IH]; intros N; cbn [app find is_prefix].
  - rewrite Ascii.eqb_refl. reflexivity.
  - destruct (Ascii.eqb_spec c x) as [->|]; [exfalso; apply N; left; reflexivity|]. cbn [andb]. apply IH. intros I. apply N. right. exact I.
Qed.
Definition body (ls : list line) : str := concat (map (fun l => text1 l ++ [NL]) ls).
Lemma body_cons l ls : body (l :: ls) = text1 l ++ NL :: body ls.
Proof. unfold body. cbn [map concat]. rewrite <- app_assoc. reflexivity. Qed.
Definition word (w : str) : Prop := w <> [] /\ ~ In NL w /\ ~ In ":"%char w.
Lemma extract_nl fuel w s : word w -> extract fuel w (NL :: s) = extract fuel w s.
Proof. intros (A & B & C). destruct fuel; [reflexivity|]. cbn [extract]. change (NL :: s) with ([] ++ NL :: s). rewrite find_skip; [reflexivity|exact A|exact B|]. intros (a & b & E). symmetry in E. apply app_eq_nil in E. destruct E as [_ E]. apply app_eq_nil in E. tauto. Qed.
(** What the search finds, line by line. *)
Fixpoint looked (w : str) (ls : list line) : option (str * str) :=
  match ls with
  | [] => None
  | Entry k t v :: r => if str_eqb k w then Some (text1 (Entry k t v) ++ NL :: body r, v) else looked w r
  | Empty :: r => looked w r
  end.
Lemma blank_tabs t : Forall (fun c => c = " "%char \/ c = TAB) t -> forallb (fun c => ascii_eqb c " " || ascii_eqb c TAB) t = true /\ ~ In NL t /\ ~ In ":"%char t.
Proof.
  intros F. split; [apply forallb_forall; intros x I; rewrite Forall_forall in F; destruct (F x I) as [-> | ->]; reflexivity|].
  rewrite Forall_forall in F. split; intros I; destruct (F _ I) as [E|E]; discriminate.
Qed.
Lemma key_found w (k t v rest : str) fuel : word w -> well_formed (Entry k t v) -> is_prefix w k = true ->
  extract (S fuel) w (text1 (Entry k t v) ++ NL :: rest) =
    if forallb (fun c => ascii_eqb c " " || ascii_eqb c TAB) (skipn (length w) k ++ t) then Some (text1 (Entry k t v) ++ NL :: rest, v) else extract fuel w (NL :: rest).
Proof.
  intros (A & B & C) (K1 & K2 & T & V) P. apply is_prefix_app in P. destruct P as [c ->]. destruct (blank_tabs _ T) as (_ & T2 & T3).
  cbn [extract text1]. set (s := ((w ++ c) ++ t ++ L ": " ++ v) ++ NL :: rest).
  assert (E1 : s = w ++ ((c ++ t) ++ ":"%char :: " "%char :: v ++ NL :: rest)) by (unfold s; rewrite <- !app_assoc; reflexivity).
  assert (F1 : find w s = Some s). { assert (X : is_prefix w s = true) by (rewrite E1; apply is_prefix_self). destruct s; cbn [find]; rewrite X; reflexivity. }
  rewrite F1. 
  assert (F2 : find (L ":") s = Some (":"%char :: " "%char :: v ++ NL :: rest)).
  { rewrite E1, app_assoc. apply find_char. intros I. rewrite !in_app_iff in *. tauto. }
  rewrite F2. change (":"%char :: " "%char :: v ++ NL :: rest) with ((":"%char :: " "%char :: v) ++ NL :: rest) at 1.
  rewrite find_char by (intros [I|[I|I]]; [discriminate|discriminate|tauto]).
  assert (E2 : firstn (length s - length w - length (":"%char :: " "%char :: v ++ NL :: rest)) (skipn (length w) s) = c ++ t).
  { rewrite E1, skipn_app, skipn_all, Nat.sub_diag. cbn [app skipn]. set (q := ":"%char :: " "%char :: v ++ NL :: rest). rewrite !app_length.
    replace (length w + (length c + length t + length q) - length w - length q)%nat with (length (c ++ t)) by (rewrite app_length; lia). rewrite firstn_app, firstn_all, Nat.sub_diag. cbn [firstn]. apply app_nil_r. }
  rewrite E2. rewrite skipn_app, skipn_all, Nat.sub_diag. cbn [app skipn].
  assert (E3 : (length (":"%char :: " "%char :: v ++ NL :: rest) - length (NL :: rest))%nat = S (S (length v))) by (cbn [length]; rewrite app_length; cbn [length]; lia).
  rewrite E3. change (2 <=? S (S (length v)))%nat with true. cbv iota. replace (S (S (length v)) - 2)%nat with (length v) by lia. rewrite firstn_app, firstn_all, Nat.sub_diag. cbn [firstn]. rewrite app_nil_r.
  reflexivity.
Qed.
Lemma extract_body w ls : word w -> Forall well_formed ls -> Forall (clear w) ls -> forall fuel, (length ls < fuel)%nat -> extract fuel w (body ls) = looked w ls.
Proof.
  intros W WF CL. induction ls as [|l ls IH]; intros fuel Lt; (destruct fuel as [|fuel]; [lia|]).
  - destruct W as (A & _ & _). cbn. destruct w; [congruence|reflexivity].
  - inversion WF as [|? ? W1 W2]; subst. inversion CL as [|? ? C1 C2]; subst. specialize (IH W2 C2). cbn [length] in Lt. rewrite body_cons.
    destruct C1 as [NO|(NT & k & t & v & -> & K)].
    + assert (X : extract (S fuel) w (text1 l ++ NL :: body ls) = extract (S fuel) w (body ls)) by (cbn [extract]; rewrite find_skip; [reflexivity|apply W|apply W|exact NO]).
      rewrite X, IH by lia. destruct l as [|k t v]; cbn [looked]; [reflexivity|]. destruct (str_eqb k w) eqn:E; [|reflexivity]. apply str_eqb_eq in E. subst k. exfalso. apply NO. exists [], (t ++ L ": " ++ v). reflexivity.
    + cbn [looked]. destruct K as [->|(c & x & d & -> & X1 & X2)].
      * rewrite key_found by (auto; rewrite <- (app_nil_r w) at 2; apply is_prefix_self). rewrite skipn_all. cbn [app]. destruct W1 as (_ & _ & T & _). rewrite (proj1 (blank_tabs _ T)). rewrite (proj2 (str_eqb_eq w w) eq_refl). reflexivity.
      * rewrite key_found by (auto; apply is_prefix_self). rewrite skipn_app, skipn_all, Nat.sub_diag. cbn [app skipn].
        assert (FB : forallb (fun c => ascii_eqb c " " || ascii_eqb c TAB) ((c ++ x :: d) ++ t) = false).
        { rewrite !forallb_app. cbn [forallb]. apply Ascii.eqb_neq in X1, X2. unfold ascii_eqb. rewrite X1, X2. cbn [orb andb]. rewrite andb_false_r. reflexivity. }
        rewrite FB, extract_nl by exact W. rewrite IH by lia. destruct (str_eqb (w ++ c ++ x :: d) w) eqn:E; [|reflexivity]. apply str_eqb_eq in E. exfalso. apply (f_equal (@length _)) in E. rewrite !app_length in E. cbn in E. lia.
Qed.
Lemma body_length ls : (length ls <= length (body ls))%nat.
Proof. induction ls as [|l ls IH]; [cbn; lia|]. rewrite body_cons, app_length. cbn [length]. lia. Qed.
Lemma value_body w ls : word w -> Forall well_formed ls -> Forall (clear w) ls -> extract_value w (body ls) = looked w ls.
Proof. intros W F C. unfold extract_value. apply extract_body; auto. pose proof (body_length ls). lia. Qed.
Lemma looked_value w ls : value_or_empty (looked w ls) = hd [] (values w ls).
Proof. induction ls as [|[|k t v] ls IH]; [reflexivity|exact IH|]. cbn [looked values flat_map]. destruct (str_eqb k w); [reflexivity|exact IH]. Qed.
(** After a value has been found. *)
Lemma value_tail w l ls : word w -> Forall well_formed ls -> Forall (clear w) ls -> ~ occurs w (tl (text1 l)) -> text1 l <> [] -> extract_value w (tl (text1 l ++ NL :: body ls)) = looked w ls.
Proof.
  intros W F C O NE. unfold extract_value. destruct (text1 l) as [|c x] eqn:E; [congruence|]. cbn [tl app] in *. rewrite app_length. cbn [length].
  assert (X : forall n, extract (S n) w (x ++ NL :: body ls) = extract (S n) w (body ls)) by (intros n; cbn [extract]; rewrite find_skip; [reflexivity|apply W|apply W|exact O]).
  rewrite X. apply extract_body; auto. pose proof (body_length ls). lia.
Qed.
Definition highest (vs : list str) (m : Z) : Z := fold_left (fun m v => Z.max m (atoi v)) vs m.
Lemma max_id_body ls : Forall well_formed ls -> Forall (clear (L "physical id")) ls -> forall fuel m, (length ls <= fuel)%nat -> max_id fuel (looked (L "physical id") ls) m = highest (values (L "physical id") ls) m.
Proof.
  assert (W : word (L "physical id")) by (split; [discriminate|split; intros I; vm_compute in I; intuition discriminate]). set (w := L "physical id") in *.
  intros WF CL. induction ls as [|l ls IH]; intros fuel m Le; [destruct fuel; reflexivity|].
  inversion WF as [|? ? W1 W2]; subst. inversion CL as [|? ? C1 C2]; subst. specialize (IH W2 C2). cbn [length] in Le. destruct l as [|k t v]; cbn [looked values flat_map]; [apply IH; lia|].
  destruct (str_eqb k w) eqn:E; [|apply IH; lia]. apply str_eqb_eq in E. subst k. destruct fuel as [|fuel]; [lia|]. cbn [max_id]. fold w.
  destruct C1 as [NO|(NT & _)]; [exfalso; apply NO; exists [], (t ++ L ": " ++ v); reflexivity|].
  rewrite value_tail; auto; [|discriminate]. rewrite IH by lia. unfold highest. cbn [app fold_left]. fold (values w ls). f_equal. destruct (Z.ltb_spec m (atoi v)); lia.
Qed.
Lemma count_skip w l rest : w <> [] -> ~ In NL w -> ~ occurs w l -> count w (l ++ NL :: rest) = count w rest.
Proof.
  intros NE N. induction l as [|c l IH]; intros O; cbn [app count].
  - destruct w as [|x w]; [congruence|]. cbn [is_prefix]. destruct (Ascii.eqb_spec x NL) as [->|]; [exfalso; apply N; left; reflexivity|reflexivity].
  - change (c :: l ++ NL :: rest) with ((c :: l) ++ NL :: rest). rewrite prefix_line by exact N. destruct (is_prefix w (c :: l)) eqn:P; [exfalso; apply O, occurs_prefix, P|]. rewrite IH; [reflexivity|]. intros X. apply O, occurs_cons, X.
Qed.
Definition PT : str := L "processor" ++ [TAB].
(** "processor" and a tab only at the beginning of a line. *)
Definition begins_only (l : line) : Prop := ~ occurs PT (tl (text1 l)).
Lemma count_body ls : Forall begins_only ls -> count PT (body ls) = Z.of_nat (processors ls).
Proof.
  induction 1 as [|l ls B F IH]; [reflexivity|]. rewrite body_cons. unfold processors in *. cbn [filter]. fold PT in *. unfold begins_only in B.
  assert (NN : PT <> [] /\ ~ In NL PT) by (split; [discriminate|intros I; vm_compute in I; intuition discriminate]). destruct NN as [NE N].
  destruct (text1 l) as [|c x] eqn:E.
  - rewrite (count_skip PT [] (body ls) NE N); [exact IH|]. intros (a & b & X). symmetry in X. apply app_eq_nil in X. destruct X as [_ X]. discriminate.
  - cbn [tl] in B. cbn [app count]. change (c :: x ++ NL :: body ls) with ((c :: x) ++ NL :: body ls). rewrite prefix_line by exact N. rewrite count_skip by auto. rewrite IH. destruct (is_prefix PT (c :: x)); cbn [length]; lia.
Qed.
Definition usable (ls : list line) : Prop :=
  Forall well_formed ls /\ Forall begins_only ls /\ Forall (clear (L "physical id")) ls /\ Forall (clear (L "cpu cores")) ls /\ Forall (clear (L "ncpus active")) ls.
Lemma counts_eq ls : usable ls -> cpu_counts (cpuinfo ls) =
  let m := highest (values (L "physical id") ls) (-1) in
  let p := if 0 <? m then (atoi (hd [] (values (L "cpu cores") ls)) * (m + 1)) mod 2 ^ 32 else atoi (hd [] (values (L "ncpus active") ls)) mod 2 ^ 32 in
  let p := if p <=? 0 then 1 else p in
  Some (Z.of_nat (processors ls), p, Z.of_nat (processors ls) / p).
Proof.
  intros (F & B & C1 & C2 & C3). unfold cpu_counts, cpuinfo. fold (body ls).
  destruct (body ls ++ [NL]) as [|c s] eqn:E; [destruct (body ls); discriminate|]. rewrite <- E, removelast_last. clear E c s.
  assert (W1 : word (L "physical id")) by (split; [discriminate|split; intros I; vm_compute in I; intuition discriminate]).
  assert (W2 : word (L "cpu cores")) by (split; [discriminate|split; intros I; vm_compute in I; intuition discriminate]).
  assert (W3 : word (L "ncpus active")) by (split; [discriminate|split; intros I; vm_compute in I; intuition discriminate]).
  fold PT. rewrite (count_body _ B), (value_body _ _ W1 F C1), (value_body _ _ W2 F C2), (value_body _ _ W3 F C3), !looked_value, max_id_body by (auto using body_length). reflexivity.
Qed.
Lemma atoi_written v n : written v n -> atoi v = n.
Proof.
  intros W. destruct (written_decimal _ _ W) as (NE & F & E & _). unfold atoi. destruct v as [|c v]; [congruence|]. inversion F as [|? ? D _]; subst. destruct (digit_not c D) as (S1 & S2 & S3). cbn [drop_while]. rewrite S1, S2, S3.
  rewrite take_while_all; [reflexivity|]. apply forallb_forall. rewrite Forall_forall in F. exact F.
Qed.
(** The highest of some numbers. *)
Definition numbers_of (vs : list str) (ns : list Z) : Prop := Forall2 written vs ns.
Lemma highest_of vs ns : numbers_of vs ns -> forall m, highest vs m = fold_left Z.max ns m.
Proof. induction 1 as [|v n vs ns W F IH]; intros m; [reflexivity|]. unfold highest in *. cbn [fold_left]. rewrite (atoi_written _ _ W). apply IH. Qed.
Lemma fold_max ns : forall m, m <= fold_left Z.max ns m /\ Forall (fun n => n <= fold_left Z.max ns m) ns /\ (fold_left Z.max ns m = m \/ In (fold_left Z.max ns m) ns).
Proof.
  induction ns as [|n ns IH]; intros m; cbn [fold_left]; [split; [lia|split; [constructor|auto]]|]. destruct (IH (Z.max m n)) as (A & B & C). split; [lia|split; [constructor; [lia|exact B]|]].
  destruct C as [C|C]; [|right; right; exact C]. rewrite C. destruct (Z.max_spec m n) as [[_ E]|[_ E]]; rewrite E; [right; left; reflexivity|auto].
Qed.
(** Each line "processor" is one logical processor; with more than one socket there are
    cores for each of them. *)
Theorem C143_sockets : forall ls ids top first others n, usable ls -> numbers_of (values (L "physical id") ls) ids -> In top ids -> Forall (fun i => i <= top) ids -> 1 <= top ->
  values (L "cpu cores") ls = first :: others -> written first n -> 1 <= n -> n * (top + 1) < 2 ^ 32 ->
  cpu_counts (cpuinfo ls) = Some (Z.of_nat (processors ls), n * (top + 1), Z.of_nat (processors ls) / (n * (top + 1))).
Proof.
  intros ls ids top first others n U NI I F T V W N S. rewrite (counts_eq _ U), V. cbn [hd]. rewrite (atoi_written _ _ W), (highest_of _ _ NI).
  assert (E : fold_left Z.max ids (-1) = top).
  { destruct (fold_max ids (-1)) as (_ & B & C). rewrite Forall_forall in B, F. apply B in I. destruct C as [C|C]; [lia|]. apply F in C. lia. }
  rewrite E. cbv zeta. rewrite (proj2 (Z.ltb_lt 0 top)) by lia. rewrite Z.mod_small by nia. rewrite (proj2 (Z.leb_gt _ 0)) by nia. reflexivity.
Qed.
(** With one socket the number of cores is not used: there is one processor, however
    many cores the machine has. *)
Theorem C143_one_socket_refuted : forall ls ids, usable ls -> numbers_of (values (L "physical id") ls) ids -> Forall (fun i => i = 0) ids -> values (L "ncpus active") ls = [] ->
  cpu_counts (cpuinfo ls) = Some (Z.of_nat (processors ls), 1, Z.of_nat (processors ls)).
Proof.
  intros ls ids U NI F V. rewrite (counts_eq _ U), V. cbn [hd]. rewrite (highest_of _ _ NI).
  assert (E : fold_left Z.max ids (-1) <= 0). { destruct (fold_max ids (-1)) as (_ & _ & [C|C]); [lia|]. rewrite Forall_forall in F. apply F in C. lia. }
  cbv zeta. rewrite (proj2 (Z.ltb_ge 0 _)) by lia. change (atoi [] mod 2 ^ 32) with 0. cbn [Z.leb Z.compare]. rewrite Z.div_1_r. reflexivity.
Qed.
(** The number of logical processors, whatever the rest says. *)
Theorem C143_logical : forall ls, usable ls -> exists p, 1 <= p /\ cpu_counts (cpuinfo ls) = Some (Z.of_nat (processors ls), p, Z.of_nat (processors ls) / p).
Proof. intros ls U. rewrite (counts_eq _ U). cbv zeta. eexists. split; [|reflexivity]. match goal with |- 1 <= (if ?x <=? 0 then _ else _) => destruct (Z.leb_spec x 0); lia end. Qed.
(** Non-vacuity: two sockets of two cores, and one socket of two. *)
Definition E1 (k t v : string) : line := Entry (L k) (L t ++ [TAB]) (L v).
Definition cpu (n p : string) : list line := [Entry (L "processor") [TAB] (L n); E1 "vendor_id" "" "GenuineIntel"; E1 "cpu family" "" "6"; E1 "model" "" "85"; E1 "model name" "" "Intel(R) Xeon(R) CPU: 2.20GHz"; E1 "physical id" "" p; E1 "core id" "" "0"; E1 "cpu cores" "" "2"; E1 "flags" "" "fpu tsc"; Empty].
Definition two : list line := cpu "0" "0" ++ cpu "1" "0" ++ cpu "2" "1" ++ cpu "3" "1".
Definition one : list line := cpu "0" "0" ++ cpu "1" "0".
Lemma occurs_check w s : w <> [] -> find w s = None -> ~ occurs w s.
Proof.
  intros NE. induction s as [|c s IH]; intros H (a & b & E).
  - symmetry in E. apply app_eq_nil in E. destruct E as [_ E]. apply app_eq_nil in E. tauto.
  - cbn [find] in H. destruct (is_prefix w (c :: s)) eqn:P; [discriminate|]. destruct a as [|x a]; [cbn [app] in E; rewrite E, is_prefix_self in P; discriminate|]. inversion E; subst. apply (IH H). exists a, b. reflexivity.
Qed.
Definition clear_b (w : str) (l : line) : bool :=
  match find w (text1 l) with None => true | Some _ => match find w (tl (text1 l)) with None => match l with Entry k _ _ => str_eqb k w | Empty => false end | Some _ => false end end.
Lemma clear_check w l : w <> [] -> clear_b w l = true -> clear w l.
Proof.
  intros NE H. unfold clear_b in H. destruct (find w (text1 l)) eqn:A; [|left; apply occurs_check; auto]. destruct (find w (tl (text1 l))) eqn:B; [discriminate|]. right. split; [apply occurs_check; auto|].
  destruct l as [|k t v]; [discriminate|]. exists k, t, v. split; [reflexivity|]. left. apply str_eqb_eq. exact H.
Qed.
Definition wf_b (l : line) : bool := match l with Empty => true | Entry k t v => forallb (fun c => negb (ascii_eqb c NL) && negb (ascii_eqb c ":")) k && forallb (fun c => ascii_eqb c " " || ascii_eqb c TAB) t && forallb (fun c => negb (ascii_eqb c NL)) v end.
Lemma wf_check l : wf_b l = true -> well_formed l.
Proof.
  destruct l as [|k t v]; [intros; exact I|]. cbn [wf_b well_formed]. rewrite !andb_true_iff, !forallb_forall. intros [[A B] C].
  split; [intros X; apply A in X; discriminate|split; [intros X; apply A in X; discriminate|split; [|intros X; apply C in X; discriminate]]].
  apply Forall_forall. intros x X. apply B in X. apply orb_true_iff in X. destruct X as [X|X]; apply Ascii.eqb_eq in X; auto.
Qed.
Lemma usable_check ls : forallb wf_b ls = true -> forallb (fun l => match find PT (tl (text1 l)) with None => true | _ => false end) ls = true ->
  forallb (clear_b (L "physical id")) ls = true -> forallb (clear_b (L "cpu cores")) ls = true -> forallb (clear_b (L "ncpus active")) ls = true -> usable ls.
Proof.
  rewrite !forallb_forall. intros A B C D E. unfold usable. rewrite !Forall_forall. split; [intros x X; apply wf_check; auto|split; [|split; [|split]]].
  - intros x X. apply B in X. apply occurs_check; [discriminate|]. destruct (find PT (tl (text1 x))); congruence.
  - intros x X. apply clear_check; [discriminate|auto].
  - intros x X. apply clear_check; [discriminate|auto].
  - intros x X. apply clear_check; [discriminate|auto].
Qed.
Example C143_example :
  usable two /\ usable one /\ values (L "physical id") two = [L "0"; L "0"; L "1"; L "1"] /\ values (L "cpu cores") one = [L "2"; L "2"] /\ values (L "ncpus active") one = [] /\
  cpu_counts (cpuinfo two) = Some (4, 4, 1) /\ cpu_counts (cpuinfo one) = Some (2, 1, 2) /\ cpu_counts [] = None.
Proof. split; [apply usable_check; reflexivity|split; [apply usable_check; reflexivity|repeat split; reflexivity]]. Qed.
Print Assumptions C143_sockets.
Print Assumptions C143_logical.
Print Assumptions C143_one_socket_refuted.
