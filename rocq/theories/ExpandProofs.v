From Verif Require Import Base ExpandModel ExpandSpec.

Lemma forallb_In {A} (p : A -> bool) l : forallb p l = true <-> forall x, In x l -> p x = true.
Proof. apply forallb_forall. Qed.

Lemma type_char_spec x : type_char x = true <-> is_alpha x = true \/ is_digit x = true \/ x = "_"%char.
Proof. unfold type_char. rewrite !orb_true_iff, Ascii.eqb_eq. tauto. Qed.
Lemma name_char_spec x : name_char x = true <->
  is_alpha x = true \/ is_digit x = true \/ x = "."%char \/ x = "_"%char \/ x = ":"%char.
Proof. unfold name_char. rewrite !orb_true_iff, !Ascii.eqb_eq. tauto. Qed.

Arguments match_here : simpl never.
Lemma match_here_some s t n rest : match_here s = Some (t, n, rest) ->
  s = match_text t n ++ rest /\ is_ref t n (match_text t n).
Proof.
  unfold match_here, match_text. destruct s as [|d s]; [discriminate|].
  destruct (Ascii.eqb_spec d "$") as [->|N].
  2:{ intro H. exfalso. revert H. destruct d as [[] [] [] [] [] [] [] []]; try discriminate. congruence. }
  destruct s as [|c r]; [discriminate|]. destruct (is_alpha c) eqn:Ec; [|discriminate].
  destruct (drop_while type_char r) as [|b r2] eqn:E1; [discriminate|].
  destruct (Ascii.eqb_spec b "{") as [->|N].
  2:{ intro H. exfalso. revert H. destruct b as [[] [] [] [] [] [] [] []]; try discriminate. congruence. }
  destruct (drop_while name_char r2) as [|e r3] eqn:E2; [discriminate|].
  destruct (Ascii.eqb_spec e "}") as [->|N].
  2:{ intro H. exfalso. revert H. destruct e as [[] [] [] [] [] [] [] []]; try discriminate. congruence. }
  intro H; injection H as <- <- <-.
  pose proof (take_drop_while type_char r) as P1. pose proof (take_drop_while name_char r2) as P2.
  rewrite E1 in P1. rewrite E2 in P2. split.
  - change (L "$") with ["$"%char]. change (L "{") with ["{"%char]. change (L "}") with ["}"%char].
    rewrite <- P1, <- P2 at 1. cbn [app]. repeat rewrite <- app_assoc. cbn [app].
    repeat rewrite <- app_assoc. reflexivity.
  - split; [reflexivity|]. split.
    + exists c, (take_while type_char r). repeat split; auto. intros x Hx. apply type_char_spec.
      revert x Hx. apply forallb_forall, take_while_forall.
    + intros x Hx. apply name_char_spec. revert x Hx. apply forallb_forall, take_while_forall.
Qed.

Lemma match_here_ref t n m rest : is_ref t n m -> match_here (m ++ rest) = Some (t, n, rest).
Proof.
  intros (-> & (c & r & -> & Hc & Hr) & Hn).
  assert (Fr : forallb type_char r = true) by (apply forallb_forall; intros; apply type_char_spec; auto).
  assert (Fn : forallb name_char n = true) by (apply forallb_forall; intros; apply name_char_spec; auto).
  change (L "$") with ["$"%char]. change (L "{") with ["{"%char]. change (L "}") with ["}"%char].
  repeat (rewrite <- app_assoc || cbn [app]). unfold match_here. rewrite Hc.
  rewrite drop_while_app, take_while_app by auto.
  cbn [drop_while take_while type_char]. change (type_char "{") with false. cbv iota.
  rewrite drop_while_app, take_while_app by auto.
  cbn [drop_while take_while]. change (name_char "}") with false. cbv iota.
  rewrite !app_nil_r. reflexivity.
Qed.

Lemma find_match_some s : forall pre t n rest, find_match s = Some (pre, t, n, rest) ->
  s = pre ++ match_text t n ++ rest /\ is_ref t n (match_text t n) /\ no_ref_in pre (match_text t n ++ rest).
Proof.
  induction s as [|c s IH]; intros pre t n rest; cbn [find_match].
  - discriminate.
  - destruct (match_here (c :: s)) as [[[t0 n0] r0]|] eqn:E.
    + intro H; injection H as <- <- <- <-. apply match_here_some in E as [E1 E2].
      split; [exact E1|]. split; [exact E2|]. intros a b Hab Hb. symmetry in Hab.
      apply app_eq_nil in Hab as [_ ->]. congruence.
    + destruct (find_match s) as [[[[pre0 t0] n0] r0]|] eqn:F; [|discriminate].
      intro H; injection H as <- <- <- <-. destruct (IH _ _ _ _ eq_refl) as (-> & Hr & Hn).
      split; [reflexivity|]. split; [exact Hr|]. intros a b Hab Hb t n m tl Href Heq.
      destruct a as [|x a]; cbn [app] in Hab.
      * subst b. cbn [app] in Heq. rewrite Heq, (match_here_ref _ _ _ _ Href) in E. discriminate.
      * injection Hab as -> ->. exact (Hn a b eq_refl Hb _ _ _ _ Href Heq).
Qed.
Lemma find_match_none s : find_match s = None -> no_ref_in s [].
Proof.
  induction s as [|c s IH]; cbn [find_match].
  - intros _ a b Hab Hb. symmetry in Hab. apply app_eq_nil in Hab as [_ ->]. congruence.
  - destruct (match_here (c :: s)) as [[[t0 n0] r0]|] eqn:E; [discriminate|].
    destruct (find_match s) as [[[[pre0 t0] n0] r0]|] eqn:F; [discriminate|]. intros _.
    specialize (IH eq_refl). intros a b Hab Hb t n m tl Href Heq. rewrite app_nil_r in Heq.
    destruct a as [|x a]; cbn [app] in Hab.
    + subst b. rewrite Heq, (match_here_ref _ _ _ _ Href) in E. discriminate.
    + injection Hab as -> ->. eapply (IH a b eq_refl Hb); eauto. rewrite app_nil_r. exact Heq.
Qed.

Lemma find_match_complete pre t n m rest : is_ref t n m -> no_ref_in pre (m ++ rest) ->
  find_match (pre ++ m ++ rest) = Some (pre, t, n, rest).
Proof.
  intros Href. induction pre as [|c pre IH]; intro Hn.
  - cbn [app]. pose proof (match_here_ref _ _ _ rest Href) as E. destruct (m ++ rest); cbn [find_match]; rewrite E; reflexivity.
  - cbn [app]. cbn [find_match]. destruct (match_here (c :: pre ++ m ++ rest)) as [[[t0 n0] r0]|] eqn:E.
    + exfalso. apply match_here_some in E as [E1 E2].
      exact (Hn [] (c :: pre) eq_refl ltac:(discriminate) _ _ _ _ E2 E1).
    + rewrite IH; auto. intros a b Hab. apply (Hn (c :: a) b). cbn; congruence.
Qed.
Lemma find_match_none_complete s : no_ref_in s [] -> find_match s = None.
Proof.
  induction s as [|c s IH]; intro Hn; [reflexivity|]. cbn [find_match].
  destruct (match_here (c :: s)) as [[[t0 n0] r0]|] eqn:E.
  - exfalso. apply match_here_some in E as [E1 E2].
    eapply (Hn [] (c :: s) eq_refl ltac:(discriminate) _ _ _ _ E2). rewrite app_nil_r. exact E1.
  - rewrite IH; auto. intros a b Hab. apply (Hn (c :: a) b). cbn; congruence.
Qed.

Lemma ref_length t n m : is_ref t n m -> 0 < length m.
Proof. intros (-> & _). change (L "$") with ["$"%char]. cbn. lia. Qed.

Lemma expand_f_sound tt n : forall s, length s < n -> exists out, expand_f n tt s = Some out /\ expands tt s out.
Proof.
  induction n as [|n IH]; intros s Hl; [lia|]. cbn [expand_f].
  destruct (find_match s) as [[[[pre t] nm] rest]|] eqn:F.
  - apply find_match_some in F as (E & Href & Hn). pose proof (ref_length _ _ _ Href).
    destruct (IH rest) as (out & Eo & Ho). { rewrite E, !app_length in Hl. lia. }
    rewrite Eo. destruct (tt t) as [lk|] eqn:Et; eexists; (split; [reflexivity|]); rewrite E.
    + eapply ex_ref; eauto.
    + eapply ex_unknown; eauto.
  - exists s. split; auto. apply ex_end, find_match_none, F.
Qed.
Lemma expand_f_complete tt s out : expands tt s out -> forall n, length s < n -> expand_f n tt s = Some out.
Proof.
  induction 1 as [s Hn|pre t nm m rest out lk Hn Href Hk He IH|pre t nm m rest out Hn Href Hk He IH]; intros n Hl.
  - destruct n; [lia|]. cbn [expand_f]. rewrite find_match_none_complete; auto.
  - destruct n; [lia|]. cbn [expand_f]. rewrite (find_match_complete _ _ _ _ _ Href Hn), Hk.
    pose proof (ref_length _ _ _ Href). rewrite IH by (rewrite !app_length in Hl; lia). reflexivity.
  - destruct n; [lia|]. cbn [expand_f]. rewrite (find_match_complete _ _ _ _ _ Href Hn), Hk.
    pose proof (ref_length _ _ _ Href). rewrite IH by (rewrite !app_length in Hl; lia).
    destruct Href as (-> & _). reflexivity.
Qed.
Lemma expand_spec tt s out : expand tt s = out <-> expands tt s out.
Proof.
  unfold expand. destruct (expand_f_sound tt (S (length s)) s) as (o & E & Ho); auto. rewrite E.
  split; [intros <-; exact Ho|]. intro H. apply expand_f_complete with (n := S (length s)) in H; auto. congruence.
Qed.
Lemma expand_total tt s : expand_f (S (length s)) tt s <> None.
Proof. destruct (expand_f_sound tt (S (length s)) s) as (o & E & Ho); auto. congruence. Qed.

(** Text without '$' expands to itself. *)
Lemma expand_plain tt s : ~ In "$"%char s -> expand tt s = s.
Proof.
  intro H. apply expand_spec, ex_end. intros a b -> Hb t n m tl (-> & _) E. rewrite app_nil_r in E.
  apply H, in_or_app. right. rewrite E. change (L "$") with ["$"%char]. left. reflexivity.
Qed.
