(** ArgHelpProps2.v -- C116 continued: the whole help text, GetHelp(arg), and
    claims that do not hold. *)
From Coq Require Import Lia ZArith.
From Verif Require Import Base ArgModel ArgSpec ArgProofs ArgProps2 ArgHelpModel ArgHelpProofs ArgHelpProps.
Local Open Scope nat_scope.

(** Without aliases of aliases, the options are shown in groups: one for each option
    that is not an alias, with all its aliases, in alphabetical order. *)
Theorem C116_groups : forall opts, ssorted opts -> flat_aliases opts ->
  help_groups opts = Some (groups opts) /\
  forall n, is_opt opts n = true -> exists m, (In m (heads opts) /\ In n (family opts m)) /\ forall m', In m' (heads opts) -> In n (family opts m') -> m' = m.
Proof.
  intros opts So Fl. split; [apply groups_ok; assumption|]. intros n On.
  assert (forall k, In k (skeys opts) <-> is_opt opts k = true) as Ik. { intros k. rewrite sfind_keys. symmetry. apply shas_true. }
  unfold heads, family. destruct (is_opt opts (help_of opts n)) eqn:Oh.
  - exists (help_of opts n). split.
    + rewrite !filter_In, !Ik, (Fl n On Oh), str_eqb_refl, orb_true_r. auto.
    + intros m' A B. apply filter_In in A, B. destruct A as [_ A], B as [_ B]. apply orb_true_iff in B. rewrite !str_eqb_eq in B. destruct B as [->| ->]; [rewrite Oh in A; discriminate|reflexivity].
  - exists n. split.
    + rewrite !filter_In, !Ik, Oh, str_eqb_refl. auto.
    + intros m' A B. apply filter_In in A, B. destruct A as [A _], B as [_ B]. apply orb_true_iff in B. rewrite !str_eqb_eq in B. destruct B as [->|B]; [reflexivity|]. rewrite Ik, <- B in A. congruence.
Qed.

(** ---- the whole text ---- *)
(** How the value of an option is shown. *)
Definition mark (t : argtype) : str :=
  match t with
  | NO_ARGUMENT => [] | CONCAT_ARGUMENT => ["o"; "p"; "t"] | SPACE_ARGUMENT => [" "; "o"; "p"; "t"] | EQUAL_ARGUMENT => ["="; "o"; "p"; "t"]
  | MULTI_ARGUMENT => [" "; "o"; "p"; "t"; " "; "o"; "p"; "t"; " "; "."; "."; "."]
  end%char.
(** The column is as wide as the longest name with its mark; the mark of an option
    with several values does not count. *)
Definition mark_width (t : argtype) : nat := match t with MULTI_ARGUMENT => 0 | t => List.length (mark t) end.
Definition full_name (opts : smap opt) (n : str) : str := n ++ mark (type_of opts n).
Definition width (opts : smap opt) : nat := list_max (map (fun n => List.length n + mark_width (type_of opts n)) (skeys opts)).
Lemma mark_suffix t : suffix t = mark t.
Proof. destruct t; reflexivity. Qed.
Lemma mark_room t : room t = mark_width t.
Proof. destruct t; reflexivity. Qed.
Definition pad (w : nat) (s : str) : str := s ++ spaces (w - List.length s).
Definition shown_line (opts : smap opt) (n : str) : str := nl ++ L "  " ++ pad (width opts) (full_name opts n) ++ L "  ".

Lemma fold_max (f : str -> nat) l : forall m, fold_left (fun m n => if Nat.ltb m (f n) then f n else m) l m = Nat.max m (list_max (map f l)).
Proof.
  induction l as [|x l IH]; intros m; cbn [fold_left map list_max fold_right]; [lia|]. rewrite IH. change (fold_right Nat.max 0 (map f l)) with (list_max (map f l)). destruct (Nat.ltb_spec m (f x)); lia.
Qed.
Lemma list_max_set (f : str -> nat) a b : (forall x, In x a <-> In x b) -> list_max (map f a) = list_max (map f b).
Proof.
  intros H. assert (forall a b : list str, (forall x, In x a -> In x b) -> list_max (map f a) <= list_max (map f b)) as Q.
  { intros a0 b0 Hab. apply list_max_le. apply Forall_forall. intros y Iy. apply in_map_iff in Iy. destruct Iy as (x & <- & Ix). pose proof (proj1 (list_max_le (map f b0) (list_max (map f b0))) (le_n _)) as F. rewrite Forall_forall in F. apply F. apply in_map. auto. }
  apply Nat.le_antisymm; apply Q; intros x; apply H.
Qed.
Lemma skeys_family opts m : skeys (map (fun n => (n, tt)) (family opts m)) = family opts m.
Proof. unfold skeys, m_keys. rewrite map_map. cbn [fst]. apply map_id. Qed.
Lemma members_groups opts : ssorted opts -> flat_aliases opts -> forall x, In x (members (groups opts)) <-> In x (skeys opts).
Proof.
  intros So Fl x. unfold members, groups. rewrite in_flat_map. split.
  - intros (g & Ig & Ix). apply in_map_iff in Ig. destruct Ig as (m & <- & _). cbn [snd] in Ix. rewrite skeys_family in Ix. apply filter_In in Ix. apply Ix.
  - intros Ix. destruct (proj2 (C116_groups opts So Fl) x) as (m & [A B] & _); [apply shas_true, sfind_keys, Ix|]. eexists. split; [apply in_map_iff; exists m; split; [reflexivity|exact A]|]. cbn [snd]. rewrite skeys_family. exact B.
Qed.
Lemma maxlen_width opts : ssorted opts -> flat_aliases opts -> maxlen_of opts (groups opts) = width opts.
Proof. intros So Fl. unfold maxlen_of, width. rewrite fold_max. cbn [Nat.max]. rewrite (map_ext (fun n => List.length n + room (type_of opts n)) (fun n => List.length n + mark_width (type_of opts n)) (fun n => f_equal (Nat.add (List.length n)) (mark_room (type_of opts n)))). apply list_max_set. apply members_groups; assumption. Qed.
Lemma all_some_map {A B} (f : A -> option B) (g : A -> B) l : (forall x, In x l -> f x = Some (g x)) -> all_some (map f l) = Some (map g l).
Proof. induction l as [|x l IH]; intros H; cbn [map all_some]; [reflexivity|]. rewrite (H x (or_introl eq_refl)), IH; [reflexivity|]. intros; apply H; right; assumption. Qed.
Lemma all_some_none {A B} (f : A -> option B) l x : In x l -> f x = None -> all_some (map f l) = None.
Proof. induction l as [|y l IH]; intros I E; [destruct I|]. cbn [map all_some]. destruct I as [->|I]; [rewrite E; reflexivity|]. destruct (f y); [rewrite IH by assumption|]; reflexivity. Qed.
Lemma room_suffix t : mark_width t <= List.length (mark t).
Proof. destruct t; apply Nat.leb_le; reflexivity. Qed.
Lemma concat_flat {A} (f : A -> str) l : List.concat (map f l) = flat_map f l.
Proof. symmetry. apply flat_map_concat_map. Qed.
Lemma list_choice {A B} (P : A -> B -> Prop) (eqd : forall x y : A, {x = y} + {x <> y}) (d : B) l : (forall x, In x l -> exists y, P x y) -> exists f, forall x, In x l -> P x (f x).
Proof.
  induction l as [|a l IH]; intros H; [exists (fun _ => d); intros ? []|]. destruct IH as [f Hf]; [intros; apply H; right; assumption|]. destruct (H a (or_introl eq_refl)) as [y Hy].
  exists (fun x => if eqd x a then y else f x). intros x I. destruct (eqd x a) as [->|N]; [exact Hy|]. destruct I as [->|I]; [congruence|apply Hf; exact I].
Qed.

Lemma text_any : forall opts ll, ssorted opts -> flat_aliases opts ->
  (forall n, is_opt opts n = true -> n <> [] /\ List.length (full_name opts n) <= 75) ->
  (forall m, In m (heads opts) -> tidy (help_of opts m)) ->
  let w := size_t (ll - Z.of_nat (width opts + 4)) in (0 < w)%Z ->
  exists ls, generate_help opts ll = Some (flat_map (fun m => flat_map (shown_line opts) (family opts m) ++ show_pieces (width opts + 4) (ls m)) (heads opts)) /\
    forall m, In m (heads opts) -> lines_of w (help_of opts m) (ls m).
Proof.
  intros opts ll So Fl Hn Ht w W. assert (forall k, In k (skeys opts) <-> is_opt opts k = true) as Ik. { intros k. rewrite sfind_keys. symmetry. apply shas_true. }
  destruct (list_choice (fun m l => help_pieces (S (List.length (help_of opts m))) w (help_of opts m) = Some l /\ lines_of w (help_of opts m) l) str_dec [] (heads opts)) as [ls Hls].
  { intros m Im. apply C116_lines; [exact W|apply Ht; exact Im|lia]. }
  exists ls. split; [|intros m Im; apply Hls; exact Im]. unfold generate_help. rewrite (proj1 (C116_groups opts So Fl)), (maxlen_width opts So Fl). unfold groups. rewrite map_map.
  rewrite (all_some_map _ (fun m => flat_map (shown_line opts) (family opts m) ++ show_pieces (width opts + 4) (ls m))); [rewrite concat_flat; reflexivity|].
  intros m Im. unfold group_text. cbn [fst snd]. rewrite skeys_family.
  rewrite (all_some_map _ (shown_line opts)).
  - fold (help_of opts m). fold w. destruct (Hls m Im) as [-> _]. rewrite concat_flat. reflexivity.
  - intros n In_. apply filter_In in In_. destruct In_ as [In_ _]. pose proof In_ as Ok. apply Ik in Ok. destruct (Hn n Ok) as [Ne Ln]. unfold option_line. rewrite mark_suffix. fold (full_name opts n).
    assert (0 < width opts <= 75) as Wd.
    { split.
      - pose proof (proj1 (list_max_le (map (fun n => List.length n + mark_width (type_of opts n)) (skeys opts)) (width opts)) (le_n _)) as F. rewrite Forall_forall in F. specialize (F _ (in_map _ _ _ In_)). destruct n; [congruence|cbn in F; lia].
      - apply list_max_le. apply Forall_forall. intros y Iy. apply in_map_iff in Iy. destruct Iy as (x & <- & Ix). apply Ik in Ix. destruct (Hn x Ix) as [_ Lx]. unfold full_name in Lx. rewrite app_length in Lx. pose proof (room_suffix (type_of opts x)). lia. }
    destruct (Nat.ltb_spec 100 (List.length (full_name opts n) + 1)) as [|_]; [lia|]. destruct (Nat.eqb_spec (width opts) 0) as [|_]; [lia|].
    destruct (Nat.ltb_spec 80 (List.length (L "  " ++ full_name opts n ++ spaces (width opts - List.length (full_name opts n)) ++ L "  ") + 1)) as [X|_].
    + exfalso. rewrite !app_length in X. unfold spaces in X. rewrite repeat_length in X. change (List.length (L "  ")) with 2 in X. lia.
    + unfold shown_line, pad, nl. rewrite <- !app_assoc. reflexivity.
Qed.
(** The line length after any calls of SetLineLength: the last of 9 ... 1000, 80 at first. *)
Fixpoint last_fitting (ls : list Z) (first : Z) : Z :=
  match ls with [] => first | x :: r => last_fitting r (if (9 <=? x)%Z && (x <=? 1000)%Z then x else first) end.
Theorem C116_line_length : forall calls, let ll := line_length_after calls in
  (9 <= ll <= 1000)%Z /\ ll = last_fitting calls 80.
Proof.
  unfold line_length_after. assert (forall calls a, (9 <= a <= 1000)%Z -> (9 <= fold_left set_line_length calls a <= 1000)%Z /\ fold_left set_line_length calls a = last_fitting calls a) as H.
  { induction calls as [|x r IH]; intros a A; cbn [fold_left last_fitting]; [split; [exact A|reflexivity]|]. assert (set_line_length a x = if (9 <=? x)%Z && (x <=? 1000)%Z then x else a) as ->. { unfold set_line_length. destruct (Z.ltb_spec x 9), (Z.ltb_spec 1000 x), (Z.leb_spec 9 x), (Z.leb_spec x 1000); cbn [orb andb]; lia. }
    apply IH. destruct (Z.leb_spec 9 x), (Z.leb_spec x 1000); cbn [andb]; lia. }
  intros calls. apply H. unfold default_line_length. lia.
Qed.
(** The help text: for every group the options one per line, padded to the same
    width, then the help text in lines that are broken at blanks, at most as long as the
    room beside the options, and hold the words of the text. No room is taken off when the options are wider
    than the line (the difference is an unsigned number). *)
Theorem C116_text : forall opts calls, let ll := line_length_after calls in ssorted opts -> flat_aliases opts ->
  (forall n, is_opt opts n = true -> n <> [] /\ List.length (full_name opts n) <= 75) ->
  (forall m, In m (heads opts) -> tidy (help_of opts m)) ->
  let column := Z.of_nat (width opts + 4) in
  ll <> column ->
  let room := if (column <? ll)%Z then (ll - column)%Z else (18446744073709551616 + ll - column)%Z in
  exists ls, generate_help opts ll = Some (flat_map (fun m => flat_map (shown_line opts) (family opts m) ++ show_pieces (width opts + 4) (ls m)) (heads opts)) /\
    forall m, In m (heads opts) -> lines_of room (help_of opts m) (ls m).
Proof.
  intros opts calls ll So Fl Hn Ht column Nl room. pose proof (proj1 (C116_line_length calls)) as B. fold ll in B.
  assert (width opts <= 75) as Wd. { apply list_max_le. apply Forall_forall. intros y Iy. apply in_map_iff in Iy. destruct Iy as (x & <- & Ix). assert (is_opt opts x = true) as Ox by (apply shas_true, sfind_keys, Ix). destruct (Hn x Ox) as [_ Lx]. unfold full_name in Lx. rewrite app_length in Lx. pose proof (room_suffix (type_of opts x)). lia. }
  assert (size_t (ll - Z.of_nat (width opts + 4)) = room) as E. { unfold size_t, room. fold column. assert (0 <= column <= 79)%Z by (unfold column; lia). destruct (Z.ltb_spec column ll); [apply Z.mod_small; lia|]. symmetry. apply Z.mod_unique_pos with (q := (-1)%Z); lia. }
  destruct (text_any opts ll So Fl Hn Ht) as (ls & G & H); [rewrite E; unfold room; assert (0 <= column <= 79)%Z by (unfold column; lia); destruct (Z.ltb_spec column ll); lia|]. exists ls. split; [exact G|]. intros m Im. rewrite <- E. apply H, Im.
Qed.
(** The buffers are too small for an option of more than 75 characters (with " opt"
    and the like): adding one is undefined, whatever its help text. *)
Theorem C116_overflow_refuted : forall opts ll n, ssorted opts -> flat_aliases opts -> is_opt opts n = true -> 75 < List.length (full_name opts n) -> generate_help opts ll = None.
Proof.
  intros opts ll n So Fl On Ln. unfold generate_help. destruct (C116_groups opts So Fl) as [-> G]. destruct (G n On) as (m & [A B] & _). rewrite (all_some_none _ _ (m, map (fun n => (n, tt)) (family opts m))); [reflexivity|unfold groups; apply in_map_iff; exists m; auto|].
  unfold group_text. cbn [fst snd]. rewrite skeys_family, (all_some_none _ _ n B); [reflexivity|]. unfold option_line. rewrite mark_suffix. fold (full_name opts n). destruct (Nat.ltb 100 _); [reflexivity|]. destruct (Nat.eqb _ _); [reflexivity|].
  match goal with |- (if Nat.ltb 80 ?k then _ else _) = None => destruct (Nat.ltb_spec 80 k) as [_|X]; [reflexivity|exfalso] end. rewrite !app_length in X. change (List.length (L "  ")) with 2 in X. lia.
Qed.

(** ---- GetHelp(arg) ---- *)
(** The help text at the end of the aliases. *)
Inductive ends_at (opts : smap opt) : str -> str -> Prop :=
| ends_here n : is_opt opts n = true -> is_opt opts (help_of opts n) = false -> ends_at opts n (help_of opts n)
| ends_later n h : is_opt opts n = true -> ends_at opts (help_of opts n) h -> ends_at opts n h.
Theorem C116_get_help : forall opts n h, (exists fuel, get_help fuel opts n = Some (Some h)) <-> ends_at opts n h.
Proof.
  intros opts n h. unfold get_help, is_opt, help_of. split.
  - intros [fuel H]. destruct (sfind n opts) as [o|] eqn:E; [|discriminate]. destruct (help_end fuel opts o) as [h'|] eqn:Eh; [|discriminate]. injection H as ->.
    revert n o E Eh. induction fuel as [|fuel IH]; intros n o E Eh; cbn [help_end] in Eh; [discriminate|].
    assert (is_opt opts n = true) as On by (unfold is_opt, shas, m_has; change (m_find str_cmp n opts) with (sfind n opts); rewrite E; reflexivity).
    assert (help_of opts n = o_help o) as Hh by (unfold help_of; rewrite E; reflexivity).
    destruct (sfind (o_help o) opts) as [o'|] eqn:E'.
    + apply ends_later; [exact On|]. rewrite Hh. eapply IH; eassumption.
    + injection Eh as <-. rewrite <- Hh in *. apply ends_here; [exact On|]. unfold is_opt, shas, m_has. change (m_find str_cmp (help_of opts n) opts) with (sfind (help_of opts n) opts). rewrite E'. reflexivity.
  - induction 1 as [n On Nh|n h On H IH].
    + apply shas_true in On. destruct (sfind n opts) as [o|] eqn:E; [|congruence]. exists 1. cbn [help_end]. unfold help_of in *. rewrite E in *. apply shas_false in Nh. rewrite Nh. reflexivity.
    + apply shas_true in On. destruct (sfind n opts) as [o|] eqn:E; [|congruence]. destruct IH as [fuel IH]. unfold help_of in IH. rewrite E in IH. destruct (sfind (o_help o) opts) as [o'|] eqn:E'; [|discriminate]. exists (S fuel). cbn [help_end]. rewrite E'. exact IH.
Qed.

(** ---- plugin_explorer's options ---- *)
Example C116_explorer :
  generate_help (p_opts (explorer [])) 80 = Some (
    nl ++ L "  --config           Display configuration information needed by plugins" ++ nl ++
    nl ++ L "  --detail           Display detailed information about plugins" ++ nl ++
    nl ++ L "  --help             Display usage information" ++ nl ++
    nl ++ L "  --path opt         Add directory to plugin search path" ++ nl ++
    nl ++ L "  --plugin-name opt  Display usage information" ++ nl ++
    nl ++ L "  -Iopt              Add directory to plugin search path" ++ nl ++
    nl ++ L "  -d                 Display detailed information about plugins" ++ nl).
Proof. vm_compute. reflexivity. Qed.
Definition table (l : list (string * string)) : smap opt :=
  fold_left (fun m e => sset (L (fst e)) (Opt (L (fst e)) NO_ARGUMENT None 0 None BOOL_TYPE (L (snd e))) m) l [].
Example C116_alias : generate_help (table [("-h", "--help"); ("--help", "shows the help that you are reading now"); ("-q", "quiet")]%string) 30 = Some (
    nl ++ L "  --help  " ++ nl ++ L "  -h      shows the help that" ++ nl ++ L "          you are reading now" ++ nl ++
    nl ++ L "  -q      quiet" ++ nl).
Proof. vm_compute. reflexivity. Qed.

(** ---- claims that do not hold ---- *)
(** An alias of an alias is listed twice, or not, depending on the alphabet. *)
Theorem C116_chain_refuted :
  option_map members (help_groups (table [("-c", "-b"); ("-b", "-a"); ("-a", "text")]%string)) = Some [L "-a"; L "-b"; L "-c"; L "-c"] /\
  option_map members (help_groups (table [("-a", "-b"); ("-b", "-c"); ("-c", "text")]%string)) = Some [L "-a"; L "-b"; L "-c"].
Proof. split; vm_compute; reflexivity. Qed.
(** An option whose help text is its own name is not listed;
    and GetHelp of it never returns. *)
Theorem C116_self_refuted :
  option_map members (help_groups (table [("-x", "-x"); ("-y", "text")]%string)) = Some [L "-y"] /\
  forall fuel, get_help fuel (table [("-x", "-x"); ("-y", "text")]%string) (L "-x") = None.
Proof.
  split; [vm_compute; reflexivity|]. intros fuel. destruct (get_help fuel (table [("-x", "-x"); ("-y", "text")]%string) (L "-x")) as [[h|]|] eqn:E; [| |reflexivity]; exfalso.
  - assert (ends_at (table [("-x", "-x"); ("-y", "text")]%string) (L "-x") h) as H by (apply C116_get_help; eauto). clear E. remember (L "-x") as n eqn:En. induction H as [n On Nh|n h On H IH]; subst n; [vm_compute in Nh; discriminate|]. apply IH. reflexivity.
  - assert (shas (L "-x") (table [("-x", "-x"); ("-y", "text")]%string) = true) as X by (vm_compute; reflexivity). apply shas_true in X. unfold get_help in E. destruct (sfind (L "-x") (table [("-x", "-x"); ("-y", "text")]%string)); [|congruence]. destruct (help_end fuel _ o); discriminate.
Qed.
(** A help text with blanks at its start or end is read past its end; so is one
    when the line length is just that of the options. *)
Theorem C116_blank_refuted :
  generate_help (table [("-x", "  y")]%string) 80 = None /\ generate_help (table [("-x", "abc ")]%string) 9 = None /\ generate_help (table [("-long", "text")]%string) 9 = None.
Proof. repeat split; vm_compute; reflexivity. Qed.
Print Assumptions C116_line_length.
Print Assumptions C116_text.

(** A help text is cut at spaces and tabs, and only there. *)
Theorem C116_blank c : blank c = true <-> c = " "%char \/ c = "009"%char.
Proof. unfold blank. rewrite orb_true_iff. unfold ascii_eqb. rewrite !Ascii.eqb_eq. tauto. Qed.
Print Assumptions C116_blank.
