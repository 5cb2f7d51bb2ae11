(** ProcProps.v -- C136: the settings of a process object. *)
From Coq Require Import List Bool Arith Ascii ZArith Lia.
Import ListNotations.
From Flocq Require Import IEEE754.BinarySingleNaN.
From Verif Require Import Base RegexModel RegexProps GeoModel CmdModel CmdSpec CmdProps CmdProps2 ProcModel ProcSpec.
Open Scope nat_scope.

Definition excl (q : pipe) : Prop :=
  (p_file q = None /\ p_shared q = 0%Z) \/ (p_file q = None /\ p_native q = no_native) \/ (p_shared q = 0%Z /\ p_native q = no_native).
Definition pok (p : proc) : Prop := excl (pin p) /\ excl (pout p) /\ excl (perr p).

Lemma pipe_set_spec k c q : excl q -> exists q', pipe_set 2 c q = Some q' /\ excl q' /\ retarget k c (connect (Z.eqb k 1) q) (connect (Z.eqb k 1) q').
Proof.
  intro X. destruct q as [f s [na nb]]. unfold excl in X. cbn [p_file p_shared p_native] in X. unfold no_native in X.
  destruct c as [[g|]|z|[[a b]|]]; cbn [pipe_set p_file p_shared p_native].
  - eexists; split; [reflexivity|]. split; [unfold excl; cbn; auto|]. cbn [connect p_file]. apply rt_file.
  - eexists; split; [reflexivity|]. split; [unfold excl; cbn [p_file p_shared p_native]; unfold no_native; intuition auto|]. destruct f as [f|]; cbn [connect p_file].
    + unfold connect. cbn [p_file p_shared p_native]. destruct X as [(D & _)|[(D & _)|(D & E)]]; try discriminate. subst s. injection E as -> ->. cbn [Z.eqb negb fst snd].
      destruct (Z.eqb k 1); cbn [Z.leb Z.compare]; apply rt_file_off.
    + apply rt_file_keep. intros g. unfold connect. cbn [p_file]. destruct (negb _); [discriminate|]. destruct (Z.leb _ _); discriminate.
  - destruct (Z.eqb_spec z 0) as [E|N].
    + subst z. eexists; split; [reflexivity|]. split; [unfold excl; cbn [p_file p_shared p_native]; unfold no_native; intuition auto|]. unfold connect. cbn [p_file p_shared p_native fst snd].
      destruct f as [f|]; [apply rt_shared_keep; discriminate|]. destruct (Z.eqb_spec s 0) as [E|N]; cbn [Z.eqb negb].
      * apply rt_shared_keep. destruct (Z.leb _ _); discriminate.
      * destruct X as [(_ & D)|[(_ & E)|(D & _)]]; try contradiction. injection E as -> ->. destruct (Z.eqb k 1); cbn [Z.leb Z.compare]; apply rt_shared_off.
    + eexists; split; [reflexivity|]. split; [unfold excl; cbn; auto|]. unfold connect. cbn [p_file p_shared p_native Z.eqb negb]. apply rt_shared. exact N.
  - eexists; split; [reflexivity|]. split; [unfold excl; cbn; auto|]. unfold connect at 2. cbn [p_file p_shared p_native Z.eqb negb fst snd]. destruct (Z.leb_spec 0 (if (k =? 1)%Z then a else b)) as [U|U].
    + apply rt_native. exact U.
    + apply rt_unusable. unfold usable. lia.
  - eexists; split; [reflexivity|]. split; [unfold excl; cbn [p_file p_shared p_native]; unfold no_native; intuition auto|]. unfold connect. cbn [p_file p_shared p_native fst snd].
    destruct f as [f|]; [apply rt_native_keep; discriminate|]. destruct (Z.eqb_spec s 0) as [E|N]; cbn [negb]; [|apply rt_native_keep; discriminate].
    unfold no_native. cbn [fst snd]. replace (if (k =? 1)%Z then (-1)%Z else (-1)%Z) with (-1)%Z by (destruct (Z.eqb k 1); reflexivity). cbn [Z.leb Z.compare].
    destruct (Z.leb 0 (if (k =? 1)%Z then na else nb)); [apply rt_native_off|apply rt_native_keep; discriminate].
Qed.

(** What has been established for the object reached by [h]. *)
Record state_is (h : list pcall) (p : proc) : Prop := {
  si_ok : pok p;
  si_target : forall k, (1 <= k <= 3)%Z -> target k h (wiring p k);
  si_option : forall id, (1 <= id <= 4)%Z -> option_is id h (get_option (Some p) id);
  si_timeout : timeout_is h (timeout p);
  si_dir : dir_is h (workdir p);
  si_commands : commands_are h (commands p) }.
Lemma three k : (1 <= k <= 3)%Z -> k = 1%Z \/ k = 2%Z \/ k = 3%Z. Proof. lia. Qed.
Lemma four k : (1 <= k <= 4)%Z -> k = 1%Z \/ k = 2%Z \/ k = 3%Z \/ k = 4%Z. Proof. lia. Qed.
Lemma new_is : state_is [] proc_new.
Proof.
  constructor; try constructor.
  - right; left; split; reflexivity.
  - split; left; split; reflexivity.
  - intros k K. destruct (three k K) as [E|[E|E]]; subst k; constructor.
  - intros k K. destruct (four k K) as [E|[E|[E|E]]]; subst k; constructor.
Qed.
Lemma add_is h p c : state_is h p -> good_command c -> exists a, adds (o_verbatim p) c a /\
  add_command (Some p) c = Some (Some (with_commands p (commands p ++ a)), match a with [] => 0 | _ => 1 end)%Z.
Proof.
  intros S0 G. destruct c as [[|c0 r]|]; cbn [add_command].
  - exists []. split; [constructor|]. rewrite app_nil_r. destruct p; reflexivity.
  - cbn [good_command] in G. destruct G as (NN & LT). destruct (Z.eqb_spec (o_verbatim p) 0) as [E|N].
    + exists [c0 :: r]. split; [constructor; exact E|]. reflexivity.
    + pose proof (C106_parse (fun _ => true) c0) as H. rewrite c_str_id in H by exact NN. specialize (H LT). destruct (parse_command (fun _ => true) c0 0) as [m|b args m|]; [| |contradiction].
      * destruct H as (_ & n & _ & X). discriminate.
      * destruct H as ((ws & M & _ & E) & _). assert (MS : map (fun a : carg => removelast (snd a)) args = ws).
        { transitivity (map (@removelast ascii) (map snd args)); [symmetry; apply map_map|]. rewrite E, map_map. erewrite map_ext; [apply map_id|]. intro x. apply removelast_last. }
        destruct args as [|x args].
        -- destruct ws; [|discriminate]. exists []. split; [apply ad_blank; assumption|]. rewrite app_nil_r. destruct p; reflexivity.
        -- exists [ws]. split; [apply ad_words; [exact N|exact M|]; intro Z0; subst ws; discriminate|]. rewrite <- MS. reflexivity.
  - exists []. split; [constructor|]. rewrite app_nil_r. destruct p; reflexivity.
Qed.
Lemma others h p p' c : state_is h p -> pok p' ->
  (forall k, (1 <= k <= 3)%Z -> target k (h ++ [c]) (wiring p' k)) -> (forall id, (1 <= id <= 4)%Z -> option_is id (h ++ [c]) (get_option (Some p') id)) ->
  timeout_is (h ++ [c]) (timeout p') -> dir_is (h ++ [c]) (workdir p') -> commands_are (h ++ [c]) (commands p') -> state_is (h ++ [c]) p'.
Proof. intros; constructor; auto. Qed.
Lemma call_is h p c : state_is h p -> good_call c -> exists p' v, do_call c p = Some (Some p', v) /\ state_is (h ++ [c]) p' /\ reports h c v.
Proof.
  intros S0 G. pose proof S0 as [OK0 TG OP TI DI CO]. assert (V : option_is 3 h (o_verbatim p)) by (apply (OP 3%Z); lia).
  destruct c as [cmd|cmd|t|d|k s|id v]; cbn [do_call good_call] in *.
  - assert (S1 : state_is (h ++ [ASet None]) (with_commands p [])).
    { constructor; try assumption.
      - intros k K. apply tg_other; [apply TG; exact K|discriminate].
      - intros i I. apply op_other; [apply OP; exact I|discriminate].
      - apply ti_other; [exact TI|discriminate].
      - apply di_other; [exact DI|discriminate].
      - eapply co_set; [exact V|constructor]. }
    cbn [set_command]. destruct cmd as [cmd|].
    + destruct (add_is _ _ (Some cmd) S1 G) as (a & A & E). rewrite E. cbn [with_commands commands app o_verbatim] in *. eexists _, _. split; [reflexivity|]. split.
      * constructor; try assumption.
        -- intros k K. apply tg_other; [apply TG; exact K|discriminate].
        -- intros i I. apply op_other; [apply OP; exact I|discriminate].
        -- apply ti_other; [exact TI|discriminate].
        -- apply di_other; [exact DI|discriminate].
        -- eapply co_set; [exact V|exact A].
      * eapply re_set; [exact V|exact A].
    + eexists _, _. split; [reflexivity|]. split; [exact S1|constructor].
  - destruct (add_is _ _ cmd S0 G) as (a & A & E). rewrite E. eexists _, _. split; [reflexivity|]. split.
    + constructor; try assumption.
      * intros k K. apply tg_other; [apply TG; exact K|discriminate].
      * intros i I. apply op_other; [apply OP; exact I|discriminate].
      * apply ti_other; [exact TI|discriminate].
      * apply di_other; [exact DI|discriminate].
      * eapply co_add; [exact CO|exact V|exact A].
    + eapply re_add; [exact V|exact A].
  - cbn [set_timeout]. eexists _, _. split; [reflexivity|]. split; [|constructor]. constructor; try assumption.
    + intros k K. apply tg_other; [apply TG; exact K|discriminate].
    + intros i I. apply op_other; [apply OP; exact I|discriminate].
    + cbn [timeout]. assert (LT : dlt t (dint 0) = match Bcompare t (dint 0) with Some Lt => true | _ => false end) by reflexivity. rewrite LT.
      destruct (Bcompare t (dint 0)) as [[]|] eqn:C; try (apply ti_set; unfold negative; rewrite C; discriminate). apply ti_negative. exact C.
    + apply di_other; [exact DI|discriminate].
    + apply co_other; [exact CO|]. intro; split; discriminate.
  - assert (W : exists q, set_working_directory (Some p) d = (Some q, 1%Z) /\ q = set_dir p d).
    { cbn [set_working_directory]. destruct (workdir p) as [w|] eqn:E, d as [d|]; try (eexists; split; reflexivity).
      - destruct (str_eqb w d) eqn:Q; [|eexists; split; reflexivity]. apply str_eqb_eq in Q. subst d. exists p. split; [reflexivity|]. destruct p; cbn in *; subst; reflexivity.
      - exists p. split; [reflexivity|]. destruct p; cbn in *; subst; reflexivity. }
    destruct W as (q & E & Q). rewrite E. subst q. eexists _, _. split; [reflexivity|]. split; [|constructor]. constructor; try assumption.
    + intros k K. apply tg_other; [apply TG; exact K|discriminate].
    + intros i I. apply op_other; [apply OP; exact I|discriminate].
    + apply ti_other; [exact TI|discriminate].
    + apply di_set.
    + apply co_other; [exact CO|]. intro; split; discriminate.
  - assert (W : exists q, pipe_call (Some p) k s = Some (Some q, if ((1 <=? k) && (k <=? 3))%Z then 1%Z else 0%Z) /\ state_is (h ++ [APipe k s]) q).
    { assert (KS : forall q, pok q -> (forall j, (1 <= j <= 3)%Z -> target j (h ++ [APipe k s]) (wiring q j)) -> (exists x, q = with_pipe p k x) -> state_is (h ++ [APipe k s]) q).
      { intros q OK1 T (x & E). assert (F : get_option (Some q) = get_option (Some p) /\ timeout q = timeout p /\ workdir q = workdir p /\ commands q = commands p).
        { subst q. unfold with_pipe. destruct (Z.eqb k STDIN), (Z.eqb k STDOUT), (Z.eqb k STDERR); repeat split. }
        destruct F as (F1 & F2 & F3 & F4). constructor; auto; rewrite ?F1, ?F2, ?F3, ?F4.
        - intros i I. apply op_other; [apply OP; exact I|discriminate].
        - apply ti_other; [exact TI|discriminate].
        - apply di_other; [exact DI|discriminate].
        - apply co_other; [exact CO|]. intro; split; discriminate. }
      assert (KO : forall j, (1 <= j <= 3)%Z -> j <> k -> target j (h ++ [APipe k s]) (wiring p j)).
      { intros j J D. apply tg_other; [apply TG; exact J|]. intros s' X. injection X as X _. congruence. }
      destruct OK0 as (E1 & E2 & E3). unfold pipe_call, get_pipe. change STDIN with 1%Z. change STDOUT with 2%Z. change STDERR with 3%Z.
      destruct (Z.eqb_spec k 1) as [K|N1]; [|destruct (Z.eqb_spec k 2) as [K|N2]; [|destruct (Z.eqb_spec k 3) as [K|N3]]].
      - subst k. destruct (pipe_set_spec 1 s _ E1) as (q & Q & X & R). rewrite Q. eexists. split; [reflexivity|]. apply KS; [repeat split; assumption| |eexists; reflexivity].
        intros j J. destruct (Z.eq_dec j 1) as [Z0|D]; [subst j; eapply tg_set; [apply TG; lia|exact R]|]. specialize (KO j J D). destruct (three j J) as [Z0|[Z0|Z0]]; [congruence|subst j; exact KO..].
      - subst k. destruct (pipe_set_spec 2 s _ E2) as (q & Q & X & R). rewrite Q. eexists. split; [reflexivity|]. apply KS; [repeat split; assumption| |eexists; reflexivity].
        intros j J. destruct (Z.eq_dec j 2) as [Z0|D]; [subst j; eapply tg_set; [apply TG; lia|exact R]|]. specialize (KO j J D). destruct (three j J) as [Z0|[Z0|Z0]]; [|congruence|]; subst j; exact KO.
      - subst k. destruct (pipe_set_spec 3 s _ E3) as (q & Q & X & R). rewrite Q. eexists. split; [reflexivity|]. apply KS; [repeat split; assumption| |eexists; reflexivity].
        intros j J. destruct (Z.eq_dec j 3) as [Z0|D]; [subst j; eapply tg_set; [apply TG; lia|exact R]|]. specialize (KO j J D). destruct (three j J) as [Z0|[Z0|Z0]]; [| |congruence]; subst j; exact KO.
      - exists p. split; [replace ((1 <=? k) && (k <=? 3))%Z with false by lia; reflexivity|]. apply KS; [repeat split; assumption| |].
        + intros j J. apply KO; [exact J|]. intro; subst; lia.
        + exists (pin p). unfold with_pipe. change STDIN with 1%Z. change STDOUT with 2%Z. change STDERR with 3%Z. destruct (Z.eqb_spec k 1), (Z.eqb_spec k 2), (Z.eqb_spec k 3); try contradiction. reflexivity. }
    destruct W as (q & W & SQ). unfold set_pipe_file, set_pipe_shared, set_pipe_native. destruct s as [f|s|n]; rewrite W; eexists _, _; (split; [reflexivity|split; [exact SQ|]]).
    + destruct (Z.leb_spec 1 k), (Z.leb_spec k 3); cbn [andb]; constructor; lia.
    + constructor.
    + constructor.
  - assert (W : exists q, set_option (Some p) id v = Some q /\ pok q /\ wiring q = wiring p /\ timeout q = timeout p /\ workdir q = workdir p /\ commands q = commands p /\ forall i, (1 <= i <= 4)%Z -> get_option (Some q) i = if Z.eqb i id then v else get_option (Some p) i).
    { cbn [set_option]. unfold get_option, opt_detach, opt_merge, opt_verbatim, opt_group. destruct OK0 as (E1 & E2 & E3).
      destruct (Z.eqb_spec id 1) as [E|N1]; [|destruct (Z.eqb_spec id 2) as [E|N2]; [|destruct (Z.eqb_spec id 3) as [E|N3]; [|destruct (Z.eqb_spec id 4) as [E|N4]]]];
        (eexists; split; [reflexivity|split; [repeat split; assumption|repeat split; intros i I; destruct (four i I) as [Z0|[Z0|[Z0|Z0]]]; subst; try reflexivity]]);
        match goal with |- context [Z.eqb ?a id] => destruct (Z.eqb_spec a id); [congruence|reflexivity] end. }
    destruct W as (q & W & Q1 & Q2 & Q3 & Q4 & Q5 & Q6). rewrite W. eexists _, _. split; [reflexivity|]. split; [|constructor]. constructor; auto; rewrite ?Q2, ?Q3, ?Q4, ?Q5.
    + intros k K. apply tg_other; [apply TG; exact K|discriminate].
    + intros i I. rewrite (Q6 i I). destruct (Z.eqb_spec i id) as [Z0|D]; [subst i; eapply op_set, OP; exact I|]. apply op_other; [apply OP; exact I|]. intros w X. injection X as X _. congruence.
    + apply ti_other; [exact TI|discriminate].
    + apply di_other; [exact DI|discriminate].
    + apply co_other; [exact CO|]. intro; split; discriminate.
Qed.
Lemma calls_is h : forall pre p, state_is pre p -> Forall good_call h -> exists p' vs, do_calls h p = Some (p', vs) /\ state_is (pre ++ h) p' /\ length vs = length h /\
  forall a c b, h = a ++ c :: b -> exists v, nth_error vs (length a) = Some v /\ reports (pre ++ a) c v.
Proof.
  induction h as [|c h IH]; intros pre p S0 G.
  - exists p, []. split; [reflexivity|]. rewrite app_nil_r. split; [exact S0|]. split; [reflexivity|]. intros [|] ? ? ?; discriminate.
  - inversion G as [|? ? G1 G2]; subst. destruct (call_is _ _ _ S0 G1) as (p1 & v & E & S1 & R). destruct (IH _ _ S1 G2) as (p' & vs & E' & S' & LN & RR).
    exists p', (v :: vs). cbn [do_calls]. rewrite E, E'. split; [reflexivity|]. split; [rewrite <- app_assoc in S'; exact S'|]. split; [cbn; congruence|].
    intros [|x a] c' b Q; cbn [app] in Q; injection Q as -> Q.
    + exists v. rewrite app_nil_r. split; [reflexivity|exact R].
    + destruct (RR a c' b Q) as (w & N & RW). exists w. split; [exact N|]. rewrite <- app_assoc in RW. exact RW.
Qed.

(** C136.  Any sequence of calls on a new object: nothing undefined, and every
    setting -- what each pipe is connected to, the options, timeout, directory and
    commands -- and every value returned is what the calls so far say. *)
Theorem C136_settings (h : list pcall) : Forall good_call h -> exists p vs, do_calls h proc_new = Some (p, vs) /\
  (forall k, (1 <= k <= 3)%Z -> target k h (wiring p k)) /\ (forall id, (1 <= id <= 4)%Z -> option_is id h (get_option (Some p) id)) /\
  timeout_is h (timeout p) /\ dir_is h (workdir p) /\ commands_are h (commands p) /\ length vs = length h /\
  forall a c b, h = a ++ c :: b -> exists v, nth_error vs (length a) = Some v /\ reports a c v.
Proof. intro G. destruct (calls_is h [] _ new_is G) as (p & vs & E & [A B C D F G'] & L & R). exists p, vs. auto 10. Qed.
Print Assumptions C136_settings.

(** The specification leaves no choice. *)
Lemma retarget_det k s w a : retarget k s w a -> forall b, retarget k s w b -> a = b.
Proof.
  intros A b B. destruct A; inversion B; subst; try reflexivity; try contradiction; try (exfalso; unfold usable in *; lia);
  repeat match goal with H : forall f, ToFile ?x <> ToFile f |- _ => destruct (H _ eq_refl) | H : forall a b, ToNative ?x ?y <> ToNative a b |- _ => destruct (H _ _ eq_refl) | H : ToParent <> ToParent |- _ => destruct (H eq_refl) end.
Qed.
Lemma snoc_inj {A} (h h' : list A) c c' : h ++ [c] = h' ++ [c'] -> h = h' /\ c = c'. Proof. apply app_inj_tail. Qed.
Ltac inv_snoc H := inversion H; subst; clear H; repeat match goal with
  | E : _ ++ [_] = [] |- _ => destruct (app_cons_not_nil _ _ _ (eq_sym E)) | E : [] = _ ++ [_] |- _ => destruct (app_cons_not_nil _ _ _ E)
  | E : _ ++ [_] = _ ++ [_] |- _ => apply snoc_inj in E; destruct E; subst end.
Lemma target_det k h : forall a b, target k h a -> target k h b -> a = b.
Proof.
  induction h as [|c h IH] using rev_ind; intros a b A B; inv_snoc A; inv_snoc B; try reflexivity; try congruence.
  - match goal with E : APipe _ _ = APipe _ _ |- _ => injection E as -> end. match goal with T1 : target k h ?x, T2 : target k h ?y |- _ => assert (x = y) by (apply IH; assumption); subst end. eapply retarget_det; eassumption.
  - destruct (H3 _ eq_refl).
  - destruct (H1 _ eq_refl).
  - apply IH; assumption.
Qed.
Lemma option_det id h : forall a b, option_is id h a -> option_is id h b -> a = b.
Proof.
  induction h as [|c h IH] using rev_ind; intros a b A B; inv_snoc A; inv_snoc B; try reflexivity; try congruence.
  - destruct (H2 _ eq_refl).
  - destruct (H1 _ eq_refl).
  - apply IH; assumption.
Qed.
Lemma timeout_det h : forall a b, timeout_is h a -> timeout_is h b -> a = b.
Proof.
  induction h as [|c h IH] using rev_ind; intros a b A B; inv_snoc A; inv_snoc B; try reflexivity; try congruence; try contradiction; try (apply IH; assumption);
  match goal with H : forall u, ATimeout ?t <> ATimeout u |- _ => destruct (H _ eq_refl) end.
Qed.
Lemma dir_det h : forall a b, dir_is h a -> dir_is h b -> a = b.
Proof.
  induction h as [|c h IH] using rev_ind; intros a b A B; inv_snoc A; inv_snoc B; try reflexivity; try congruence; try (apply IH; assumption);
  match goal with H : forall u, ADir ?t <> ADir u |- _ => destruct (H _ eq_refl) end.
Qed.
Lemma means_det c0 r a b : good_command (Some (c0 :: r)) -> means c0 a -> means c0 b -> a = b.
Proof.
  intros (NN & LT) A B. pose proof (C106_parse (fun _ => true) c0) as H. rewrite c_str_id in H by exact NN. specialize (H LT). destruct (parse_command (fun _ => true) c0 0) as [m|p x m|]; [| |contradiction].
  - destruct H as (_ & n & _ & X). discriminate.
  - destruct H as ((ws & _ & U & _) & _). transitivity ws; [apply U; exact A|symmetry; apply U; exact B].
Qed.
Lemma adds_det v c : good_command c -> forall a b, adds v c a -> adds v c b -> a = b.
Proof.
  intros G a b A B. inversion A; subst; inversion B; subst; try reflexivity; try contradiction;
  match goal with M1 : means ?c ?x, M2 : means ?c ?y |- _ => pose proof (means_det _ _ _ _ G M1 M2) end; subst; try reflexivity; contradiction.
Qed.
Lemma commands_det h : Forall good_call h -> forall a b, commands_are h a -> commands_are h b -> a = b.
Proof.
  induction h as [|c h IH] using rev_ind; intros G a b A B.
  - inv_snoc A; inv_snoc B; reflexivity.
  - apply Forall_app in G. destruct G as (G1 & G2). inversion G2 as [|? ? G3 _]; subst. specialize (IH G1).
    inv_snoc A; inv_snoc B; try discriminate; try (match goal with H : forall x, AAdd ?t <> AAdd x /\ _ |- _ => destruct (proj1 (H _) eq_refl) | H : forall x, ASet ?t <> _ /\ ASet ?t <> ASet x |- _ => destruct (proj2 (H _) eq_refl) end).
    + match goal with E : AAdd _ = AAdd _ |- _ => injection E as -> end. f_equal; [apply IH; assumption|].
      match goal with O1 : option_is 3 h ?x, O2 : option_is 3 h ?y |- _ => assert (x = y) by (eapply option_det; eassumption); subst end. eapply adds_det; eassumption.
    + match goal with E : ASet _ = ASet _ |- _ => injection E as -> end.
      match goal with O1 : option_is 3 h ?x, O2 : option_is 3 h ?y |- _ => assert (x = y) by (eapply option_det; eassumption); subst end. eapply adds_det; eassumption.
    + apply IH; assumption.
Qed.
Lemma reports_det h c : good_call c -> forall a b, reports h c a -> reports h c b -> a = b.
Proof.
  intros G a b A B.
  assert (K : forall v w x a0 b0, good_command x -> option_is 3 h v -> option_is 3 h w -> adds v x a0 -> adds w x b0 -> a0 = b0).
  { intros v w x a0 b0 GX O1 O2 A1 A2. assert (v = w) by (eapply option_det; eassumption). subst w. eapply adds_det; eassumption. }
  inversion A; subst; inversion B; subst; try reflexivity; try contradiction; try lia; match goal with |- Some (match ?x with _ => _ end) = Some (match ?y with _ => _ end) => match goal with A1 : adds ?v ?c x, A2 : adds ?w ?c y |- _ => rewrite (K v w c x y G ltac:(assumption) ltac:(assumption) A1 A2); reflexivity end end.
Qed.
(** C136.  The calls determine the settings and the answers. *)
Theorem C136_determined (h : list pcall) : Forall good_call h ->
  (forall k a b, target k h a -> target k h b -> a = b) /\ (forall i a b, option_is i h a -> option_is i h b -> a = b) /\
  (forall a b, timeout_is h a -> timeout_is h b -> a = b) /\ (forall a b, dir_is h a -> dir_is h b -> a = b) /\
  (forall a b, commands_are h a -> commands_are h b -> a = b) /\ forall c a b, good_call c -> reports h c a -> reports h c b -> a = b.
Proof.
  intro G. split; [intros k; apply target_det|]. split; [intro i; apply option_det|]. split; [apply timeout_det|]. split; [apply dir_det|].
  split; [apply commands_det; exact G|]. intros c a b GC. apply reports_det. exact GC.
Qed.
Print Assumptions C136_determined.

(** C136.  Other option numbers read as 0 and are ignored; calls on a null object
    report 0 and leave it null. *)
Theorem C136_other_ids (h : list pcall) (id v : Z) : ~ (1 <= id <= 4)%Z -> forall p vs, do_calls h proc_new = Some (p, vs) ->
  get_option (Some p) id = 0%Z /\ set_option (Some p) id v = Some p.
Proof.
  intros N p vs _. unfold get_option, set_option, opt_detach, opt_merge, opt_verbatim, opt_group.
  destruct (Z.eqb_spec id 1), (Z.eqb_spec id 2), (Z.eqb_spec id 3), (Z.eqb_spec id 4); try lia. split; reflexivity.
Qed.
Theorem C136_null (c : option (list str)) (t : dbl) (d : option str) (k id v : Z) (s : psetter) :
  add_command None c = Some (None, 0%Z) /\ set_command None c = Some (None, 0%Z) /\ set_timeout None t = None /\ set_working_directory None d = (None, 0%Z) /\
  pipe_call None k s = Some (None, 0%Z) /\ get_option None id = 0%Z /\ set_option None id v = None.
Proof. split; [destruct c as [[|]|]; reflexivity|]. repeat split. Qed.

(** C136.  A failing SetCommand is not without effect: the commands set before are
    gone.  (The documentation says they are removed, not that this happens even
    then.) *)
Theorem C136_failed_set_keeps_refuted : ~ forall h c p vs q, do_calls h proc_new = Some (p, vs) -> set_command (Some p) c = Some (Some q, 0%Z) -> commands q = commands p.
Proof.
  intro H. specialize (H [AAdd (Some [L "ls"])] (Some []) (with_commands proc_new [[L "ls"]]) [Some 1%Z] proc_new eq_refl eq_refl). discriminate H.
Qed.
(** Examples: a pipe's target through a history, commands with and without the
    verbatim option. *)
Definition h1 : list pcall :=
  [APipe 2 (SFile (Some (L "out.txt"))); APipe 2 (SShared 0); APipe 2 (SNative (Some (4, 5)%Z)); APipe 1 (SShared 0); APipe 2 (SFile None); APipe 7 (SFile None);
   AAdd (Some [L "a b"; L "c"]); AOption 3 1; AAdd (Some [L "x 'y z'"; L "ignored"]); AAdd (Some [L "  "]); ADir (Some (L "/tmp"))].
Example C136_ex : Forall good_call h1 /\
  match do_calls h1 proc_new with
  | Some (p, vs) => wiring p 2 = ToNative 4 5 /\ wiring p 1 = ToObject /\ wiring p 3 = ToObject /\
      commands p = [[L "a b"; L "c"]; [L "x"; L "y z"]] /\ get_option (Some p) 3 = 1%Z /\ workdir p = Some (L "/tmp") /\
      vs = [Some 1%Z; None; None; None; Some 1%Z; Some 0%Z; Some 1%Z; None; Some 1%Z; Some 0%Z; Some 1%Z]
  | None => False
  end.
Proof.
  split.
  - unfold h1. repeat (apply Forall_cons; [cbn [good_call good_command]; first [exact I|split; [intro X; vm_compute in X; intuition discriminate|vm_compute; reflexivity]]|]). apply Forall_nil.
  - vm_compute. repeat split.
Qed.
Example C136_ex2 : target 2 [APipe 2 (SFile (Some (L "f"))); APipe 2 (SShared 1); APipe 2 (SFile None)] ToParent /\
  ~ target 2 [APipe 2 (SFile (Some (L "f"))); APipe 2 (SShared 1); APipe 2 (SFile None)] ToObject.
Proof.
  assert (T : target 2 [APipe 2 (SFile (Some (L "f"))); APipe 2 (SShared 1); APipe 2 (SFile None)] ToParent).
  { apply (tg_set 2 [APipe 2 (SFile (Some (L "f"))); APipe 2 (SShared 1)] (SFile None) ToParent); [|apply rt_file_keep; discriminate].
    eapply (tg_set 2 [APipe 2 (SFile (Some (L "f")))] (SShared 1)); [|apply rt_shared; discriminate].
    eapply (tg_set 2 [] (SFile _)); [apply tg_new|apply rt_file]. }
  split; [exact T|]. intro T2. pose proof (target_det _ _ _ _ T T2). discriminate.
Qed.
Print Assumptions C136_failed_set_keeps_refuted.
