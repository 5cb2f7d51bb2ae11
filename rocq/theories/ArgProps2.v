(** ArgProps2.v -- C115 continued: integers, the options of plugin_explorer, and
    claims that do not hold. *)
From Coq Require Import Lia ZArith Decimal DecimalZ.
From Verif Require Import Base Numbers Stream ArgModel ArgSpec ArgProofs ArgProps.
Local Open Scope nat_scope.

(** ---- integers ---- *)
Lemma fold_digits l : forall a, fold_left (fun a c => (10 * a + ArgModel.digit_val c)%Z) l a = fold_left (fun a c => (a * 10 + Stream.digit_val c)%Z) l a.
Proof. induction l as [|c l IH]; intros a; cbn [fold_left]; [reflexivity|]. rewrite IH. f_equal. unfold ArgModel.digit_val, Stream.digit_val. lia. Qed.
Lemma take_digits u rest : match rest with [] => True | c :: _ => is_digit c = false end -> take_while is_digit (uint_str u ++ rest) = uint_str u.
Proof.
  intros H. pose proof (uint_digits u) as A. induction (uint_str u) as [|c l IH]; cbn [app take_while].
  - destruct rest as [|c r]; [reflexivity|]. cbn [take_while]. rewrite H. reflexivity.
  - cbn [forallb] in A. apply andb_true_iff in A. destruct A as [Hc A]. rewrite Hc, IH by exact A. reflexivity.
Qed.
(** The decimal text of any int, whatever follows it, is that int. *)
Theorem C115_int : forall sp z rest, forallb is_space sp = true -> (- 2 ^ 31 <= z < 2 ^ 31)%Z -> match rest with [] => True | c :: _ => is_digit c = false end ->
  to_int (strtol10 (sp ++ dec z ++ rest)) = z.
Proof.
  intros sp z rest Sp R H. assert (strtol10 (sp ++ dec z ++ rest) = z) as ->.
  2:{ unfold to_int. rewrite Z.mod_small; lia. }
  unfold strtol10. pose proof (to_int_nonnil z) as N. pose proof (DecimalZ.of_to z) as Z0. unfold dec. destruct (Z.to_int z) as [u|u].
  - assert (drop_while is_space (sp ++ uint_str u ++ rest) = uint_str u ++ rest) as ->.
    { rewrite drop_while_app by exact Sp. pose proof (uint_digits u) as A. destruct (uint_str u) as [|c l]; [congruence|]. cbn [app drop_while]. cbn [forallb] in A. apply andb_true_iff in A. destruct A as [Hc _]. destruct (is_space c) eqn:Es; [|reflexivity]. exfalso. clear - Hc Es. destruct c as [[] [] [] [] [] [] [] []]; cbn in *; discriminate. }
    assert (match uint_str u ++ rest with c :: r => if ascii_eqb c "-" then (true, r) else if ascii_eqb c "+" then (false, r) else (false, uint_str u ++ rest) | [] => (false, uint_str u ++ rest) end = (false, uint_str u ++ rest)) as ->.
    { pose proof (uint_digits u) as A. destruct (uint_str u) as [|c l]; [congruence|]. cbn [app]. cbn [forallb] in A. apply andb_true_iff in A. destruct A as [Hc _]. unfold ascii_eqb. destruct (Ascii.eqb_spec c "-"%char) as [->|]; [discriminate|]. destruct (Ascii.eqb_spec c "+"%char) as [->|]; [discriminate|reflexivity]. }
    rewrite (take_digits u rest H), fold_digits. change (fold_left (fun a c => (a * 10 + Stream.digit_val c)%Z) (uint_str u) 0%Z) with (digits_val (uint_str u)). rewrite digits_val_uint. cbn in Z0. lia.
  - cbn [app]. assert (drop_while is_space (sp ++ "-"%char :: uint_str u ++ rest) = "-"%char :: uint_str u ++ rest) as ->. { rewrite drop_while_app by exact Sp. reflexivity. }
    change (ascii_eqb "-" "-") with true. cbv iota. rewrite (take_digits u rest H), fold_digits. change (fold_left (fun a c => (a * 10 + Stream.digit_val c)%Z) (uint_str u) 0%Z) with (digits_val (uint_str u)). rewrite digits_val_uint. cbn in Z0. lia.
Qed.

(** ---- plugin_explorer.cxx 142-151 ---- *)
Definition explorer (argv : list str) : cla :=
  let p := initialize new_cla (L "plugin_explorer") argv in
  let p := add_argument p (L "--help") NO_ARGUMENT BOOL_TYPE (Some 0) (L "Display usage information") in
  let p := add_argument p (L "--plugin-name") SPACE_ARGUMENT STL_STRING_TYPE (Some 1) (L "Display usage information") in
  let p := add_argument p (L "--detail") NO_ARGUMENT BOOL_TYPE (Some 2) (L "Display detailed information about plugins") in
  let p := add_argument p (L "-d") NO_ARGUMENT BOOL_TYPE (Some 2) (L "Display detailed information about plugins") in
  let p := add_argument p (L "--config") NO_ARGUMENT BOOL_TYPE (Some 3) (L "Display configuration information needed by plugins") in
  let p := add_callback p (L "--path") SPACE_ARGUMENT 0 0 (L "Add directory to plugin search path") in
  add_callback p (L "-I") CONCAT_ARGUMENT 0 0 (L "Add directory to plugin search path").
Lemma explorer_made argv : made (explorer argv).
Proof. unfold explorer. repeat first [apply made_callback | apply made_argument; [|discriminate] | apply made_init | apply made_new]. Qed.
Definition explorer_names : list str := [L "--config"; L "--detail"; L "--help"; L "--path"; L "--plugin-name"; L "-I"; L "-d"].
Lemma explorer_keys argv n : kinds (explorer argv) n <> None -> In n explorer_names.
Proof.
  intros H. assert (skeys (p_opts (explorer argv)) = explorer_names) as <- by (vm_compute; reflexivity). apply sfind_keys. intros E. apply H. unfold kinds. rewrite E. reflexivity.
Qed.
Lemma explorer_free argv : prefix_free (explorer argv).
Proof.
  intros n m t Hn Hm E. apply explorer_keys in Hn, Hm.
  assert (forallb (fun a => forallb (fun b => negb (is_prefix a b) || str_eqb b a) explorer_names) explorer_names = true) as Q by (vm_compute; reflexivity).
  rewrite forallb_forall in Q. specialize (Q n Hn). rewrite forallb_forall in Q. specialize (Q m Hm). rewrite E, is_prefix_self in Q. cbn [negb orb] in Q. apply str_eqb_eq in Q. rewrite E. exact Q.
Qed.
(** path_callback always returns 1 (plugin_explorer.cxx 123-131). *)
Definition explorer_answer (_ : list call) (_ : call) : bool := true.
Definition explorer_world : world nat := World [] (fun x => match x with 1 => VStr [] | _ => VBool false end).
Lemma explorer_typed argv : typed (explorer argv) explorer_world.
Proof.
  intros n o x E V. assert (In n explorer_names) as I. { eapply explorer_keys with (argv := argv). unfold kinds. rewrite E. discriminate. }
  unfold explorer_names in I. cbn [In] in I.
  repeat destruct I as [<-|I]; try contradiction; vm_compute in E; injection E as <-; cbn in V; try discriminate; injection V as <-; exact Logic.I.
Qed.
(** The directories given with --path and -I are exactly the values path_callback
    is called with, in order, and the name is the last one given: for every list
    of settings, whatever the names and directories. *)
Inductive wish := WHelp | WName (s : str) | WDetail | WShort | WConfig | WPath (s : str) | WI (s : str).
Definition wish_setting (q : wish) : str * list str :=
  match q with
  | WHelp => (L "--help", []) | WName s => (L "--plugin-name", [s]) | WDetail => (L "--detail", []) | WShort => (L "-d", []) | WConfig => (L "--config", [])
  | WPath s => (L "--path", [s]) | WI s => (L "-I", [s])
  end.
Definition wish_words (q : wish) : list str :=
  match q with
  | WHelp => [L "--help"] | WName s => [L "--plugin-name"; s] | WDetail => [L "--detail"] | WShort => [L "-d"] | WConfig => [L "--config"]
  | WPath s => [L "--path"; s] | WI s => [L "-I" ++ s]
  end.
Definition wish_dirs (q : wish) : list str := match q with WPath s => [s] | WI s => [s] | _ => [] end.
Definition wish_name (old : str) (q : wish) : str := match q with WName s => s | _ => old end.
Definition call_value (c : call) : list str := match c with CB _ _ _ (Some v) => [v] | _ => [] end.
Lemma explorer_kind argv q : kinds (explorer argv) (fst (wish_setting q)) =
  Some (match q with WName _ | WPath _ => SPACE_ARGUMENT | WI _ => CONCAT_ARGUMENT | _ => NO_ARGUMENT end).
Proof. destruct q; vm_compute; reflexivity. Qed.
Lemma explorer_opt argv q : exists o, sfind (fst (wish_setting q)) (p_opts (explorer argv)) = Some o /\
  o_cb o = match q with WPath _ | WI _ => Some 0 | _ => None end /\ o_var o = match q with WHelp => Some 0 | WName _ => Some 1 | WDetail | WShort => Some 2 | WConfig => Some 3 | _ => None end.
Proof. destruct q; eexists; (split; [vm_compute; reflexivity|split; reflexivity]). Qed.
Definition wish_flag (q : wish) : option nat := match q with WHelp => Some 0 | WDetail | WShort => Some 2 | WConfig => Some 3 | _ => None end.
Lemma explorer_follow argv : forall qs sts at_ (w : world nat) u, map snd sts = map (meant (explorer argv)) (map wish_setting qs) ->
  (exists s, w_vars w 1 = VStr s) -> (forall x, x <> 1 -> exists b, w_vars w x = VBool b) ->
  exists rem w', follow (fun _ => 0) explorer_answer (explorer argv) sts None at_ w u = Some (true, rem, w', u) /\
    flat_map call_value (w_calls w') = flat_map call_value (w_calls w) ++ flat_map wish_dirs qs /\
    (forall s, w_vars w 1 = VStr s -> w_vars w' 1 = VStr (fold_left wish_name qs s)) /\
    (forall x b, x <> 1 -> w_vars w x = VBool b -> w_vars w' x = VBool (b || existsb (fun q => match wish_flag q with Some y => Nat.eqb y x | None => false end) qs)).
Proof.
  induction qs as [|q qs IH]; intros sts at_ w u E V1 Vb.
  - cbn [map] in E. apply map_eq_nil in E. subst sts. cbn [follow]. eexists _, _. split; [reflexivity|]. cbn [flat_map fold_left existsb]. rewrite app_nil_r. repeat split; [auto|]. intros x b _ Q. rewrite orb_false_r. exact Q.
  - destruct sts as [|[here st] sts]; [discriminate|]. cbn [map snd] in E. injection E as Eq E. unfold meant in Eq. rewrite explorer_kind in Eq. subst st. cbn [follow].
    destruct (explorer_opt argv q) as (o & -> & Ec & Ev).
    assert (forall w1, give_all (fun _ => 0) explorer_answer o (match (match q with WName _ | WPath _ => SPACE_ARGUMENT | WI _ => CONCAT_ARGUMENT | _ => NO_ARGUMENT end) with NO_ARGUMENT => [None] | _ => map Some (snd (wish_setting q)) end) w = Gave w1 ->
      (exists s, w_vars w1 1 = VStr s) -> (forall x, x <> 1 -> exists b, w_vars w1 x = VBool b) ->
      flat_map call_value (w_calls w1) = flat_map call_value (w_calls w) ++ wish_dirs q ->
      (forall s, w_vars w 1 = VStr s -> w_vars w1 1 = VStr (wish_name s q)) ->
      (forall x b, x <> 1 -> w_vars w x = VBool b -> w_vars w1 x = VBool (b || match wish_flag q with Some y => Nat.eqb y x | None => false end)) ->
      exists rem w', follow (fun _ => 0) explorer_answer (explorer argv) sts None here w1 u = Some (true, rem, w', u) /\
        flat_map call_value (w_calls w') = flat_map call_value (w_calls w) ++ flat_map wish_dirs (q :: qs) /\
        (forall s, w_vars w 1 = VStr s -> w_vars w' 1 = VStr (fold_left wish_name (q :: qs) s)) /\
        (forall x b, x <> 1 -> w_vars w x = VBool b -> w_vars w' x = VBool (b || existsb (fun q => match wish_flag q with Some y => Nat.eqb y x | None => false end) (q :: qs)))) as K.
    { intros w1 _ A1 A2 A3 A4 A5. destruct (IH sts here w1 u E A1 A2) as (rem & w' & F & B1 & B2 & B3). exists rem, w'. split; [exact F|]. split; [rewrite B1, A3, <- app_assoc; reflexivity|].
      split; [intros s Q; cbn [fold_left]; apply B2, A4, Q|]. intros x b N Q. cbn [existsb]. rewrite orb_assoc. apply B3; [exact N|]. apply A5; assumption. }
    destruct V1 as [s1 V1].
    assert (forall y, y <> 1 -> wish_flag q = Some y -> wish_dirs q = [] -> (forall s, wish_name s q = s) -> o_cb o = None -> o_var o = Some y ->
      exists w1, give_all (fun _ => 0) explorer_answer o [None] w = Gave w1 /\ (exists s, w_vars w1 1 = VStr s) /\ (forall x, x <> 1 -> exists b, w_vars w1 x = VBool b) /\
        flat_map call_value (w_calls w1) = flat_map call_value (w_calls w) ++ wish_dirs q /\ (forall s, w_vars w 1 = VStr s -> w_vars w1 1 = VStr (wish_name s q)) /\
        (forall x b, x <> 1 -> w_vars w x = VBool b -> w_vars w1 x = VBool (b || match wish_flag q with Some y => Nat.eqb y x | None => false end))) as Flag.
    { intros y Ny Ef Ed En Ec' Ev'. destruct (Vb y Ny) as [b0 Q0]. exists (set_var w y (VBool true)). cbn [give_all]. unfold give, store. rewrite Ec', Ev', Q0. split; [reflexivity|].
      cbn [w_vars w_calls set_var]. rewrite Ed, app_nil_r. split; [exists s1; destruct (Nat.eqb_spec 1 y); [congruence|exact V1]|].
      split; [intros x Nx; destruct (Nat.eqb_spec x y); [eauto|apply Vb; exact Nx]|]. split; [reflexivity|]. split; [intros s Q; rewrite En; destruct (Nat.eqb_spec 1 y); [congruence|exact Q]|].
      intros x b Nx Q. rewrite Ef. rewrite (Nat.eqb_sym y x). destruct (Nat.eqb x y); [rewrite orb_true_r; reflexivity|rewrite orb_false_r; exact Q]. }
    assert (forall s, snd (wish_setting q) = [s] -> wish_flag q = None -> wish_dirs q = [s] -> (forall s, wish_name s q = s) -> o_cb o = Some 0 -> o_var o = None ->
      exists w1, give_all (fun _ => 0) explorer_answer o [Some s] w = Gave w1 /\ (exists s, w_vars w1 1 = VStr s) /\ (forall x, x <> 1 -> exists b, w_vars w1 x = VBool b) /\
        flat_map call_value (w_calls w1) = flat_map call_value (w_calls w) ++ wish_dirs q /\ (forall s, w_vars w 1 = VStr s -> w_vars w1 1 = VStr (wish_name s q)) /\
        (forall x b, x <> 1 -> w_vars w x = VBool b -> w_vars w1 x = VBool (b || match wish_flag q with Some y => Nat.eqb y x | None => false end))) as Dir.
    { intros s Es Ef Ed En Ec' Ev'. eexists. cbn [give_all]. unfold give, store. rewrite Ec', Ev'. unfold explorer_answer. split; [reflexivity|]. cbn [w_vars w_calls].
      rewrite Ed, flat_map_app. split; [eauto|]. split; [exact Vb|]. split; [reflexivity|]. split; [intros s' Q; rewrite En; exact Q|]. intros x b Nx Q. rewrite Ef, orb_false_r. exact Q. }
    destruct q as [|s| | | |s|s]; cbn [wish_setting snd map] in K |- *.
    + destruct (Flag 0 ltac:(discriminate) eq_refl eq_refl (fun _ => eq_refl) Ec Ev) as (w1 & G1 & A1 & A2 & A3 & A4 & A5). rewrite G1. exact (K w1 G1 A1 A2 A3 A4 A5).
    + assert (give_all (fun _ => 0) explorer_answer o [Some s] w = Gave (set_var w 1 (VStr s))) as G1. { cbn [give_all]. unfold give, store. rewrite Ec, Ev, V1. reflexivity. }
      rewrite G1. apply (K _ G1); cbn [w_vars set_var w_calls wish_dirs wish_name wish_flag].
      * exists s. reflexivity.
      * intros x Nx. destruct (Nat.eqb_spec x 1); [congruence|apply Vb; exact Nx].
      * rewrite app_nil_r. reflexivity.
      * reflexivity.
      * intros x b Nx Q. rewrite orb_false_r. destruct (Nat.eqb_spec x 1); [congruence|exact Q].
    + destruct (Flag 2 ltac:(discriminate) eq_refl eq_refl (fun _ => eq_refl) Ec Ev) as (w1 & G1 & A1 & A2 & A3 & A4 & A5). rewrite G1. exact (K w1 G1 A1 A2 A3 A4 A5).
    + destruct (Flag 2 ltac:(discriminate) eq_refl eq_refl (fun _ => eq_refl) Ec Ev) as (w1 & G1 & A1 & A2 & A3 & A4 & A5). rewrite G1. exact (K w1 G1 A1 A2 A3 A4 A5).
    + destruct (Flag 3 ltac:(discriminate) eq_refl eq_refl (fun _ => eq_refl) Ec Ev) as (w1 & G1 & A1 & A2 & A3 & A4 & A5). rewrite G1. exact (K w1 G1 A1 A2 A3 A4 A5).
    + destruct (Dir s eq_refl eq_refl eq_refl (fun _ => eq_refl) Ec Ev) as (w1 & G1 & A1 & A2 & A3 & A4 & A5). rewrite G1. exact (K w1 G1 A1 A2 A3 A4 A5).
    + destruct (Dir s eq_refl eq_refl eq_refl (fun _ => eq_refl) Ec Ev) as (w1 & G1 & A1 & A2 & A3 & A4 & A5). rewrite G1. exact (K w1 G1 A1 A2 A3 A4 A5).
Qed.
Theorem C115_explorer : forall qs, (Z.of_nat (List.length (flat_map wish_words qs)) < 2 ^ 63)%Z ->
  exists s, parse (fun _ => 0) explorer_answer (explorer (flat_map wish_words qs)) explorer_world = Ret true s /\
    flat_map call_value (w_calls (s_w s)) = flat_map wish_dirs qs /\
    w_vars (s_w s) 1 = VStr (fold_left wish_name qs []) /\
    (forall x, x <> 1 -> w_vars (s_w s) x = VBool (existsb (fun q => match wish_flag q with Some y => Nat.eqb y x | None => false end) qs)).
Proof.
  intros qs Sm. set (argv := flat_map wish_words qs) in *. set (p := explorer argv).
  destruct (C115_spell p (map wish_setting qs) (explorer_free argv)) as (sts & Hl & Hm).
  { apply Forall_forall. intros q H. apply in_map_iff in H. destruct H as (x & <- & _). unfold setting, p. rewrite explorer_kind. destruct x; cbn [wish_setting snd]; eauto. }
  assert (flat_map (spelled p) (map wish_setting qs) = argv) as Ea.
  { unfold p. generalize argv at 1. intros av. unfold argv. clear. induction qs as [|q qs IH]; [reflexivity|]. cbn [map flat_map]. rewrite IH. f_equal. unfold spelled. rewrite explorer_kind. destruct q; reflexivity. }
  rewrite Ea in Hl. assert (p_argv p = argv) as Ep by reflexivity.
  pose proof (C115_parse nat (fun _ => 0) explorer_answer p explorer_world sts None (explorer_made argv) (explorer_typed argv)) as P. rewrite Ep in P. specialize (P Sm (fun _ => eq_refl) Hl).
  destruct (explorer_follow argv qs sts [] explorer_world (if p_store p then [] else p_unused p) Hm) as (rem & w' & F & B1 & B2 & B3); [eexists; reflexivity| |].
  { intros x Nx. cbn. destruct x as [|[|x]]; [eauto|congruence|eauto]. }
  fold p in F. rewrite F in P. destruct P as (s & Es & Ew & _). exists s. split; [exact Es|]. rewrite Ew. split; [rewrite B1; reflexivity|]. split; [apply B2; reflexivity|].
  intros x Nx. rewrite (B3 x false Nx); [reflexivity|]. cbn. destruct x as [|[|x]]; [reflexivity|congruence|reflexivity].
Qed.
Example C115_explorer_ex :
  match parse (fun _ => 0) explorer_answer (explorer [L "-I/a b"; L "-d"; L "--path"; L "--help"; L "--plugin-name"; L "x"]) explorer_world with
  | Ret b s => (b, flat_map call_value (w_calls (s_w s)), w_vars (s_w s) 0, w_vars (s_w s) 1, w_vars (s_w s) 2) | _ => (false, [], VInt 0%Z, VInt 0%Z, VInt 0%Z) end
  = (true, [L "/a b"; L "--help"], VBool false, VStr (L "x"), VBool true).
Proof. vm_compute. reflexivity. Qed.
(** A word that is not an option, or --path without a directory, makes it fail. *)
Example C115_explorer_bad :
  match parse (fun _ => 0) explorer_answer (explorer [L "-d"; L "--plugin-name=x"]) explorer_world with Ret b _ => b | _ => true end = false /\
  match parse (fun _ => 0) explorer_answer (explorer [L "-d"; L "--path"]) explorer_world with Ret b _ => b | _ => true end = false.
Proof. split; vm_compute; reflexivity. Qed.

(** ---- claims that do not hold ---- *)
Definition left_over (p : cla) (w : world nat) : option (list (option str) * nat * Z) :=
  match parse (fun _ => 0) explorer_answer p w with Ret true s => match get_remaining (after p s) with Some (a, n) => Some (firstn n a, n, get_last (after p s)) | None => None end | _ => None end.
(** "Get remaining arguments" (hxx.in 217-220), "the last argument that was parsed
    ok" (262-265): when the last statement takes its value from the next word, or
    takes many, they remain although they were used, and the index is that of
    the option. *)
Theorem C115_remaining_refuted :
  left_over (explorer [L "-d"; L "--path"; L "/x"]) explorer_world = Some ([Some (L "plugin_explorer"); Some (L "/x")], 2, 2%Z) /\
  left_over (explorer [L "--path"; L "/x"; L "-d"]) explorer_world = Some ([Some (L "plugin_explorer")], 1, 3%Z).
Proof. split; vm_compute; reflexivity. Qed.
(** "For boolean (NO_ARGUMENT) arguments, the value is 1" (34-35): the callback is
    given a null pointer. *)
Theorem C115_null_refuted : exists p (w : world nat) b s, made p /\ typed p w /\ parse (fun _ => 0) explorer_answer p w = Ret b s /\ w_calls (s_w s) = [CB 7 0 (L "-x") None].
Proof.
  exists (add_callback (initialize new_cla (L "p") [L "-x"]) (L "-x") NO_ARGUMENT 7 0 (L "")), explorer_world. eexists _, _. split; [apply made_callback, made_init, made_new|]. split.
  { intros n o x E V. destruct (str_dec n (L "-x")) as [->|N]; [vm_compute in E; injection E as <-; discriminate|]. unfold add_callback, set_opts in E. cbn [p_opts] in E. rewrite sfind_set_ne in E by exact N. discriminate. }
  split; [vm_compute; reflexivity|]. reflexivity.
Qed.
(** An int variable takes any text without complaint. *)
Theorem C115_int_refuted : to_int (strtol10 (L "abc")) = 0%Z /\ to_int (strtol10 (L "12x")) = 12%Z /\ to_int (strtol10 (L "4294967297")) = 1%Z /\ to_int (strtol10 (L "2147483648")) = (- 2147483648)%Z.
Proof. repeat split; vm_compute; reflexivity. Qed.
(** Without prefix free names some values cannot be written: -Ifast is taken
    for another option. *)
Definition clash : cla := add_argument (add_callback (initialize new_cla (L "p") [L "-Ifast"]) (L "-I") CONCAT_ARGUMENT 0 0 (L "")) (L "-Ifast") NO_ARGUMENT BOOL_TYPE (Some 0) (L "").
Theorem C115_spell_refuted : exists s, parse (fun _ => 0) explorer_answer clash explorer_world = Ret true s /\ w_calls (s_w s) = [] /\ w_vars (s_w s) 0 = VBool true.
Proof. eexists. split; [vm_compute; reflexivity|]. split; reflexivity. Qed.
(** A char* variable that points to something not from new[] is deleted. *)
Theorem C115_cstring_refuted : exists p (w : world nat), made p /\ typed p w /\ parse (fun _ => 0) explorer_answer p w = Undef.
Proof.
  exists (add_argument (initialize new_cla (L "p") [L "-x"; L "y"]) (L "-x") SPACE_ARGUMENT STRING_TYPE (Some 0) (L "")), (World [] (fun _ => VCstr COther)). split; [apply made_argument; [apply made_init, made_new|discriminate]|]. split.
  { intros n o x E V. destruct (str_dec n (L "-x")) as [->|N]; [vm_compute in E; injection E as <-; injection V as <-; exact I|]. unfold add_argument, set_opts in E. cbn [p_opts] in E. rewrite sfind_set_ne in E by exact N. discriminate. }
  vm_compute. reflexivity.
Qed.
Print Assumptions C115_parse.
Print Assumptions C115_explorer.
