(** ArgProps.v -- C115: command lines. *)
From Coq Require Import Lia ZArith.
From Verif Require Import Base ArgModel ArgSpec ArgProofs.
Local Open Scope nat_scope.

(** Every list of words is a command line in exactly one way. *)
Theorem C115_line : forall p ws, made p ->
  exists sts e, line (kinds p) ws sts e /\ forall sts' e', line (kinds p) ws sts' e' -> sts' = sts /\ e' = e.
Proof.
  intros p ws M. pose proof (made_good p M) as G. destruct (line_total p G ws) as (sts & e & H). exists sts, e. split; [exact H|].
  intros sts' e' H'. destruct (line_unique p ws sts e H sts' e' H') as [-> ->]. auto.
Qed.

(** ---- arrays of arguments ---- *)
Lemma copy_args_ok l : forall a cnt, cnt + List.length l <= List.length a ->
  exists a', copy_args a cnt l = Some (a', cnt + List.length l) /\ firstn (cnt + List.length l) a' = firstn cnt a ++ map Some l.
Proof.
  induction l as [|x l IH]; intros a cnt H; cbn [copy_args List.length map].
  - exists a. rewrite Nat.add_0_r, app_nil_r. auto.
  - cbn [List.length] in H. unfold array_put. destruct (Nat.ltb_spec cnt (List.length a)) as [Lt|]; [|lia].
    destruct (IH (lupd a cnt (Some x)) (S cnt)) as (a' & E & F); [rewrite lupd_length; lia|]. exists a'. rewrite E. replace (cnt + S (List.length l)) with (S cnt + List.length l) by lia. split; [reflexivity|].
    rewrite F. change (Some x :: map Some l) with ([Some x] ++ map Some l). rewrite app_assoc. f_equal.
    clear - Lt. revert cnt Lt. induction a as [|y a IH]; intros cnt Lt; cbn in Lt; [lia|]. destruct cnt as [|cnt]; [reflexivity|]. cbn [lupd]. change (firstn (S (S cnt)) (y :: lupd a cnt (Some x)) ) with (y :: firstn (S cnt) (lupd a cnt (Some x))). rewrite IH by lia. reflexivity.
Qed.
Lemma array_first n x : 0 < n -> exists a, array_put (repeat None n) 0 x = Some a /\ List.length a = n /\ firstn 1 a = [Some x].
Proof.
  intros H. unfold array_put. rewrite repeat_length. destruct (Nat.ltb_spec 0 n); [|lia]. eexists. split; [reflexivity|]. split; [rewrite lupd_length, repeat_length; reflexivity|]. destruct n; [lia|]. reflexivity.
Qed.
(** The array handed out by GetRemainingArguments / GetUnusedArguments is
    written inside its bounds and is argv[0] and the given words. *)
Definition hands_out (r : option (list (option str) * nat)) (ws : list str) : Prop :=
  exists a, r = Some (a, List.length ws) /\ firstn (List.length ws) a = map Some ws.
Lemma remaining_ok {D} p (s : st D) rem : leaves p (s_last s) rem -> hands_out (get_remaining (after p s)) (p_argv0 p :: rem).
Proof.
  intros [E Ls]. unfold get_remaining, after. cbn [p_argv0 p_argv p_last]. rewrite E.
  destruct (array_first (Z.to_nat ((Z.of_nat (List.length (p_argv p)) - s_last s + 1) mod 2 ^ 64)) (p_argv0 p)) as (a & -> & La & Fa); [lia|].
  destruct (copy_args_ok rem a 1) as (a' & -> & F); [lia|]. exists a'. split; [reflexivity|]. change (firstn (1 + List.length rem) a' = Some (p_argv0 p) :: map Some rem). rewrite F, Fa. reflexivity.
Qed.
Lemma unused_ok {D} p (s : st D) : hands_out (get_unused (after p s)) (p_argv0 p :: s_unused s).
Proof.
  unfold get_unused, after. cbn [p_argv0 p_unused]. destruct (array_first (List.length (s_unused s) + 1) (p_argv0 p)) as (a & -> & La & Fa); [lia|].
  destruct (copy_args_ok (s_unused s) a 1) as (a' & -> & F); [lia|]. exists a'. split; [reflexivity|]. change (firstn (1 + List.length (s_unused s)) a' = Some (p_argv0 p) :: map Some (s_unused s)). rewrite F, Fa. reflexivity.
Qed.

(** Parse() does what the statements say, in order; it returns 1 or 0 and leaves
    variables, calls, unused and remaining words as [follow] says. *)
Theorem C115_parse : forall D strtod answer p (w : world D) sts e,
  made p -> typed p w -> (Z.of_nat (List.length (p_argv p)) < 2 ^ 63)%Z -> (p_argv p = [] -> p_last p = 0%Z) ->
  line (kinds p) (p_argv p) sts e ->
  match follow strtod answer p sts e [] w (if p_store p then [] else p_unused p) with
  | Some (b, rem, w', u') => exists s, parse strtod answer p w = Ret b s /\ s_w s = w' /\
      hands_out (get_remaining (after p s)) (p_argv0 p :: rem) /\ hands_out (get_unused (after p s)) (p_argv0 p :: u')
  | None => parse strtod answer p w = Undef
  end.
Proof.
  intros D strtod answer p w sts e M T Sm Z H. pose proof (made_good p M) as G.
  assert (outcome p (follow strtod answer p sts e [] w (if p_store p then [] else p_unused p)) (parse strtod answer p w)) as O.
  { unfold parse. destruct (p_argv p) as [|a0 r0] eqn:Ea.
    - inversion H; subst. cbn [List.length parse_from follow tl]. rewrite Ea. cbn [nth_error]. eexists. split; [reflexivity|]. cbn [s_w s_unused s_last]. repeat split.
      + rewrite Ea, skipn_nil. reflexivity. + rewrite (Z eq_refl), Ea. cbn. lia.
    - (* the first word resets LastArgument *)
      assert (forall last, parse_from strtod answer p (S (List.length (p_argv p))) 0 (St last (if p_store p then [] else p_unused p) w) =
                           parse_from strtod answer p (S (List.length (p_argv p))) 0 (St 0%Z (if p_store p then [] else p_unused p) w)) as Eq.
      { intros last. cbn [parse_from]. rewrite Ea. cbn [nth_error]. reflexivity. }
      rewrite <- Ea. rewrite Eq. rewrite <- Ea in H, Sm.
      (* [at_] is irrelevant as there is at least one statement or an error *)
      assert (forall at1 at2 u, follow strtod answer p sts e at1 w u = follow strtod answer p sts e at2 w u) as Ef.
      { intros at1 at2 u. rewrite Ea in H. inversion H; subst; reflexivity. }
      rewrite (Ef [] (p_argv p)). apply (sim strtod answer p G Sm (p_argv p) sts e H (S (List.length (p_argv p))) 0 (St 0%Z _ w) (p_argv p)); [reflexivity|lia|exact T|].
      cbn [s_last]. apply (leaves_after p Sm 0). rewrite Ea. cbn. lia. }
  destruct (follow strtod answer p sts e [] w (if p_store p then [] else p_unused p)) as [[[[b rem] w'] u']|]; [|exact O].
  destruct O as (s & E & Ew & Eu & Lv). exists s. split; [exact E|]. split; [exact Ew|]. split; [apply remaining_ok; exact Lv|]. rewrite <- Eu. apply unused_ok.
Qed.

(** ---- safety ---- *)
Lemma own_set {D} (w : world D) x v : own_strings w -> v <> VCstr COther -> own_strings (set_var w x v).
Proof. intros H N y. cbn. destruct (Nat.eqb y x); [exact N|apply H]. Qed.
Lemma own_store {D} strtod o v (w : world D) : own_strings w -> exists w', store strtod o v w = Gave w' /\ own_strings w'.
Proof.
  intros H. unfold store. destruct (o_var o) as [x|]; [|eauto]. pose proof (H x) as Hx.
  destruct (w_vars w x) as [| | |[| |]| | | | | |]; try congruence; cbn [assign]; (eexists; split; [reflexivity|apply own_set; [exact H|congruence]]).
Qed.
Lemma own_give {D} strtod answer o v (w : world D) : own_strings w -> match give strtod answer o v w with Gave w' | Refused w' => own_strings w' | Undefined => False end.
Proof.
  intros H. unfold give. destruct (o_cb o) as [f|].
  - destruct (answer _ _); [|exact H]. destruct (own_store strtod o v (World (w_calls w ++ [CB f (o_data o) (o_text o) v]) (w_vars w)) H) as (w' & -> & H'). exact H'.
  - destruct (own_store strtod o v w H) as (w' & -> & H'). exact H'.
Qed.
Lemma own_give_all {D} strtod answer o vs : forall w : world D, own_strings w -> match give_all strtod answer o vs w with Gave w' | Refused w' => own_strings w' | Undefined => False end.
Proof.
  induction vs as [|v vs IH]; intros w H; cbn [give_all]; [exact H|]. pose proof (own_give strtod answer o v w H) as Q. destruct (give strtod answer o v w); [apply IH; exact Q|exact Q|exact Q].
Qed.
Lemma line_names p ws sts e : line (kinds p) ws sts e -> forall h n vs, In (h, Given n vs) sts -> exists o, sfind n (p_opts p) = Some o.
Proof.
  induction 1; intros h n0 vs0 I; try contradiction; (destruct I as [Q|I]; [try discriminate|eauto]); inversion Q; subst;
    (unfold kinds in *; match goal with |- exists o, sfind ?k _ = _ => destruct (sfind k (p_opts p)) as [o|]; [eauto|discriminate] end).
Qed.
Lemma follow_some {D} strtod answer p sts e : forall at_ (w : world D) u, own_strings w -> (forall h n vs, In (h, Given n vs) sts -> exists o, sfind n (p_opts p) = Some o) ->
  exists b rem w' u', follow strtod answer p sts e at_ w u = Some (b, rem, w', u') /\ own_strings w'.
Proof.
  induction sts as [|[here [n vs|a]] sts IH]; intros at_ w u O N; cbn [follow].
  - destruct e; eauto 8.
  - destruct (N here n vs (or_introl eq_refl)) as (o & ->). pose proof (own_give_all strtod answer o vs w O) as Q. destruct (give_all strtod answer o vs w); [|eauto 8|contradiction]. apply IH; [exact Q|]. intros. eapply N. right. eassumption.
  - destruct (p_unknown p).
    + destruct (answer _ _); eexists _, _, _, _; (split; [reflexivity|exact O]).
    + destruct (p_store p); [|eauto 8]. apply IH; [exact O|]. intros. eapply N. right. eassumption.
Qed.
(** With variables of their types and char* variables null or owning their
    block, Parse() returns (no abort, no undefined behaviour), and so it stays. *)
Theorem C115_safe : forall D strtod answer p (w : world D), made p -> typed p w -> own_strings w ->
  (Z.of_nat (List.length (p_argv p)) < 2 ^ 63)%Z -> (p_argv p = [] -> p_last p = 0%Z) ->
  exists b s, parse strtod answer p w = Ret b s /\ own_strings (s_w s).
Proof.
  intros D strtod answer p w M T O Sm Z. destruct (C115_line p (p_argv p) M) as (sts & e & H & _).
  pose proof (C115_parse D strtod answer p w sts e M T Sm Z H) as P.
  destruct (follow_some strtod answer p sts e [] w (if p_store p then [] else p_unused p) O (line_names p _ _ _ H)) as (b & rem & w' & u' & E & O'). rewrite E in P.
  destruct P as (s & -> & <- & _). eauto.
Qed.

(** ---- the values of variables ---- *)
(** The texts given to variable [x], in order. *)
Definition texts_of (p : cla) (x : nat) (sts : list (list str * stmt)) : list str :=
  flat_map (fun q => match snd q with
                     | Given n vs => match sfind n (p_opts p) with
                                     | Some o => match o_var o with Some y => if Nat.eqb y x then map shown vs else [] | None => [] end
                                     | None => []
                                     end
                     | Stray _ => []
                     end) sts.
Fixpoint assign_all {D} (strtod : str -> D) (v : var D) (ts : list str) : option (var D) :=
  match ts with
  | [] => Some v
  | t :: r => match assign strtod v t with Some v' => assign_all strtod v' r | None => None end
  end.
Lemma assign_all_app {D} strtod (v : var D) a b : assign_all strtod v (a ++ b) = match assign_all strtod v a with Some v' => assign_all strtod v' b | None => None end.
Proof. revert v. induction a as [|t a IH]; intros v; cbn [assign_all app]; [reflexivity|]. destruct (assign strtod v t); [apply IH|reflexivity]. Qed.
Definition mine (o : opt) (x : nat) (vs : list (option str)) : list str :=
  match o_var o with Some y => if Nat.eqb y x then map shown vs else [] | None => [] end.
Lemma store_var {D} strtod o v (w w' : world D) x : store strtod o v w = Gave w' -> assign_all strtod (w_vars w x) (mine o x [v]) = Some (w_vars w' x).
Proof.
  unfold store, mine. destruct (o_var o) as [y|]; [|intros E; injection E as <-; reflexivity]. destruct (assign strtod (w_vars w y) (shown v)) as [v'|] eqn:E; [|discriminate]. intros Q; injection Q as <-. cbn.
  rewrite (Nat.eqb_sym x y). destruct (Nat.eqb_spec y x) as [->|N]; cbn [map assign_all]; [rewrite E|]; reflexivity.
Qed.
Lemma give_var {D} strtod answer o v (w w' : world D) x : give strtod answer o v w = Gave w' -> assign_all strtod (w_vars w x) (mine o x [v]) = Some (w_vars w' x).
Proof.
  unfold give. destruct (o_cb o); [|apply store_var]. destruct (answer _ _); [|discriminate]. intros H. apply (store_var strtod o v _ w' x H).
Qed.
Lemma give_all_var {D} strtod answer o vs x : forall (w w' : world D), give_all strtod answer o vs w = Gave w' -> assign_all strtod (w_vars w x) (mine o x vs) = Some (w_vars w' x).
Proof.
  induction vs as [|v vs IH]; intros w w'; cbn [give_all].
  - intros E; injection E as <-. unfold mine. destruct (o_var o) as [y|]; [destruct (Nat.eqb y x)|]; reflexivity.
  - destruct (give strtod answer o v w) as [w1| |] eqn:E; try discriminate. intros H. pose proof (give_var strtod answer o v w w1 x E) as G1. specialize (IH _ _ H).
    replace (mine o x (v :: vs)) with (mine o x [v] ++ mine o x vs) by (unfold mine; destruct (o_var o) as [y|]; [destruct (Nat.eqb y x)|]; reflexivity). rewrite assign_all_app, G1. exact IH.
Qed.
(** When everything was accepted each variable has been given, in order, exactly
    the texts of the statements of its options, and no other. *)
Theorem C115_values : forall D strtod answer p (w : world D) sts s,
  made p -> typed p w -> (Z.of_nat (List.length (p_argv p)) < 2 ^ 63)%Z -> (p_argv p = [] -> p_last p = 0%Z) -> p_unknown p = None ->
  line (kinds p) (p_argv p) sts None -> parse strtod answer p w = Ret true s ->
  forall x, assign_all strtod (w_vars w x) (texts_of p x sts) = Some (w_vars (s_w s) x).
Proof.
  intros D strtod answer p w sts s M T Sm Z U H E x. pose proof (C115_parse D strtod answer p w sts None M T Sm Z H) as P.
  destruct (follow strtod answer p sts None [] w (if p_store p then [] else p_unused p)) as [[[[b rem] w'] u']|] eqn:F; [|congruence].
  destruct P as (s' & E' & Ew & _). rewrite E in E'. injection E' as <- <-. rewrite Ew. clear - F U.
  generalize dependent (if p_store p then [] else p_unused p). generalize (@nil str). revert w. induction sts as [|[here [n vs|a]] sts IH]; intros w at_ u F; cbn [follow] in F.
  - injection F as <- <- <-. reflexivity.
  - cbn [texts_of flat_map snd]. destruct (sfind n (p_opts p)) as [o|]; [|discriminate]. destruct (give_all strtod answer o vs w) as [w1| |] eqn:Eg; try discriminate.
    fold (mine o x vs). rewrite assign_all_app, (give_all_var strtod answer o vs x _ _ Eg). apply (IH _ _ _ F).
  - cbn [texts_of flat_map snd app]. rewrite U in F. destruct (p_store p); [|discriminate]. apply (IH _ _ _ F).
Qed.
(** In particular a std::string holds the last text, a vector of strings gets
    all of them. *)
Lemma last_any {A} (l : list A) : forall x a b, last (x :: l) a = last (x :: l) b.
Proof. induction l as [|y l IH]; intros x a b; [reflexivity|]. exact (IH y a b). Qed.
Lemma assign_all_str {D} strtod ts : forall s, @assign_all D strtod (VStr s) ts = Some (VStr (last ts s)).
Proof. induction ts as [|t ts IH]; intros s; cbn [assign_all assign]; [reflexivity|]. rewrite IH. do 2 f_equal. destruct ts as [|u ts]; [reflexivity|]. exact (last_any ts u t s). Qed.
Lemma assign_all_vstr {D} strtod ts : forall l, @assign_all D strtod (VVStr l) ts = Some (VVStr (l ++ ts)).
Proof. induction ts as [|t ts IH]; intros l; cbn [assign_all assign]; [rewrite app_nil_r; reflexivity|]. rewrite IH, <- app_assoc. reflexivity. Qed.
Theorem C115_strings : forall D strtod answer p (w : world D) sts s,
  made p -> typed p w -> (Z.of_nat (List.length (p_argv p)) < 2 ^ 63)%Z -> (p_argv p = [] -> p_last p = 0%Z) -> p_unknown p = None ->
  line (kinds p) (p_argv p) sts None -> parse strtod answer p w = Ret true s ->
  forall x, (forall t, w_vars w x = VStr t -> w_vars (s_w s) x = VStr (last (texts_of p x sts) t)) /\
            (forall l, w_vars w x = VVStr l -> w_vars (s_w s) x = VVStr (l ++ texts_of p x sts)).
Proof.
  intros D strtod answer p w sts s M T Sm Z U H E x. pose proof (C115_values D strtod answer p w sts s M T Sm Z U H E x) as V.
  split; intros q Q; rewrite Q in V; [rewrite assign_all_str in V|rewrite assign_all_vstr in V]; congruence.
Qed.

(** ---- any settings can be written ---- *)
(** How a setting is written. *)
Definition spell (k : argtype) (n : str) (vs : list str) : list str :=
  match k with
  | NO_ARGUMENT => [n]
  | SPACE_ARGUMENT => n :: vs
  | EQUAL_ARGUMENT => map (fun v => n ++ "="%char :: v) vs
  | CONCAT_ARGUMENT => map (fun v => n ++ v) vs
  | MULTI_ARGUMENT => n :: vs
  end.
(** No option's name is the beginning of another's. *)
Definition prefix_free (p : cla) : Prop := forall n m t, kinds p n <> None -> kinds p m <> None -> m = n ++ t -> m = n.
(** A setting: an option and its values: none for NO_ARGUMENT, one for the others,
    any number for MULTI_ARGUMENT if they cannot be taken for options. *)
Definition setting (p : cla) (q : str * list str) : Prop :=
  match kinds p (fst q) with
  | None => False
  | Some NO_ARGUMENT => snd q = []
  | Some MULTI_ARGUMENT => forall v, In v (snd q) -> ~ known (kinds p) v
  | Some _ => exists v, snd q = [v]
  end.
Definition spelled (p : cla) (q : str * list str) : list str :=
  match kinds p (fst q) with Some k => spell k (fst q) (snd q) | None => [] end.
Definition meant (p : cla) (q : str * list str) : stmt :=
  Given (fst q) (match kinds p (fst q) with Some NO_ARGUMENT => [None] | _ => map Some (snd q) end).
Lemma app_compare {A} (n m r r' : list A) : n ++ r = m ++ r' -> List.length n <= List.length m -> exists t, m = n ++ t.
Proof.
  revert m. induction n as [|c n IH]; intros m E H; [exists m; reflexivity|]. destruct m as [|d m]; cbn in *; [lia|]. injection E as -> E. destruct (IH m E) as [t ->]; [lia|]. exists t. reflexivity.
Qed.
Lemma free_chosen p n r : prefix_free p -> fits (kinds p) n (n ++ r) -> chosen (kinds p) n (n ++ r).
Proof.
  intros PF F. split; [exact F|]. intros m Fm. destruct (Nat.le_gt_cases (List.length m) (List.length n)) as [|Gt]; [assumption|]. exfalso.
  assert (exists r', n ++ r = m ++ r') as [r' E]. { unfold fits in Fm. destruct (kinds p m) as [[]|]; try contradiction; try exact Fm; exists []; rewrite app_nil_r; exact Fm. }
  destruct (app_compare n m r r' E) as [t Et]; [lia|].
  assert (m = n) as Q. { apply (PF n m t); [| |exact Et]; [intros Q; unfold fits in F; rewrite Q in F; exact F|intros Q; unfold fits in Fm; rewrite Q in Fm; exact Fm]. }
  rewrite Q in Gt. lia.
Qed.
(** With such names, any list of settings can be written down and means just that,
    whatever the values. *)
Theorem C115_spell : forall p qs, prefix_free p -> Forall (setting p) qs ->
  exists sts, line (kinds p) (flat_map (spelled p) qs) sts None /\ map snd sts = map (meant p) qs.
Proof.
  intros p qs PF. induction qs as [|[n vs] qs IH]; intros F; [exists []; split; [constructor|reflexivity]|]. inversion F as [|? ? Hq Hqs]; subst. destruct (IH Hqs) as (sts & Hl & Hm). clear IH.
  cbn [flat_map map]. unfold spelled at 1, meant at 1. unfold setting in Hq. cbn [fst snd] in *. destruct (kinds p n) as [k|] eqn:Ek; [|contradiction].
  assert (fits (kinds p) n (n ++ [])) as F0. { unfold fits. rewrite Ek, app_nil_r. destruct k; try reflexivity; exists []; rewrite app_nil_r; reflexivity. }
  pose proof (free_chosen p n [] PF F0) as C0. rewrite app_nil_r in C0.
  assert (k <> NO_ARGUMENT -> k <> SPACE_ARGUMENT -> forall v, chosen (kinds p) n (n ++ v)) as Cv. { intros N1 N2 v. apply free_chosen; [exact PF|]. unfold fits. rewrite Ek. destruct k; try congruence; exists v; reflexivity. }
  destruct k.
  - subst vs. cbn [spell app]. eexists. split; [eapply line_no; eassumption|]. cbn [map snd]. rewrite Hm. reflexivity.
  - destruct Hq as [v ->]. cbn [spell map app]. eexists. split; [eapply line_concat; [apply Cv; discriminate|exact Ek|reflexivity|exact Hl]|]. cbn [map snd]. rewrite Hm. reflexivity.
  - destruct Hq as [v ->]. cbn [spell app]. eexists. split; [eapply line_space; eassumption|]. cbn [map snd]. rewrite Hm. reflexivity.
  - destruct Hq as [v ->]. cbn [spell map app]. eexists. split; [eapply line_equal; [apply Cv; discriminate|exact Ek|reflexivity|exact Hl]|]. cbn [map snd]. rewrite Hm. reflexivity.
  - cbn [spell app]. eexists. split; [eapply line_multi; [exact C0|exact Ek|exact Hq| |exact Hl]|cbn [map snd]; rewrite Hm; reflexivity].
    destruct qs as [|[m ms] qs]; [exact I|]. inversion Hqs as [|? ? Hq' _]; subst. cbn [flat_map]. unfold spelled. unfold setting in Hq'. cbn [fst snd] in *. destruct (kinds p m) as [k'|] eqn:Ek'; [|contradiction].
    assert (forall r, k' <> NO_ARGUMENT -> k' <> SPACE_ARGUMENT -> known (kinds p) (m ++ r)) as Kn. { intros r N1 N2. exists m. unfold fits. rewrite Ek'. destruct k'; try congruence; eexists; reflexivity. }
    destruct k'; try (destruct Hq' as [v ->]); cbn [spell map app].
    + exists m. unfold fits. rewrite Ek'. reflexivity.
    + apply Kn; discriminate.
    + exists m. unfold fits. rewrite Ek'. reflexivity.
    + apply Kn; discriminate.
    + specialize (Kn [] ltac:(discriminate) ltac:(discriminate)). rewrite app_nil_r in Kn. exact Kn.
Qed.
