(** C132: paths prepared for a command line.  SystemTools::ConvertToOutputPath
    (that is ConvertToUnixOutputPath) and ConvertToWindowsOutputPath. *)
From Verif Require Import Base OutPathModel OutPathSpec OutPathProofs.
From Coq Require Import Lia.

(** The text returned: runs of slashes become one, except that the first byte is
    left alone, and then every blank not behind a backslash gets one. *)
Theorem C132_value : forall p, ~ In "000"%char p -> to_output p = Some (guard false (one_each_but_first "/" p)) /\ to_unix_output p = to_output p.
Proof. intros p H. split; [apply unix_total; auto|reflexivity]. Qed.
Print Assumptions C132_value.

Lemma words_guard s : forall a, ~ In "\"%char s -> words (Some a) (guard false s) = [a ++ s].
Proof.
  induction s as [|x s IH]; intros a H; cbn [guard words]. { rewrite app_nil_r; auto. }
  assert (Hs : ~ In "\"%char s) by (intro; apply H; right; auto).
  assert (Hx : Ascii.eqb x "\" = false) by (destruct (Ascii.eqb_spec x "\"); auto; exfalso; apply H; left; auto).
  rewrite Hx. destruct (Ascii.eqb x " ") eqn:B; cbn [andb negb app words].
  - change (Ascii.eqb "\" "\") with true. cbv iota. rewrite IH; auto. rewrite <- app_assoc. reflexivity.
  - rewrite Hx, B, IH; auto. rewrite <- app_assoc. reflexivity.
Qed.
Lemma in_one_each c s : forall x, In x (one_each c s) -> In x s.
Proof.
  induction s as [|y s IH]; auto. intros x. destruct s as [|z s]; auto. rewrite one_each_cons2. destruct (_ && _)%bool.
  - intro I. right. auto. - intros [I|I]; [left; auto|right; auto].
Qed.
(** The shell reads the returned text as one word, which is the path itself but
    for repeated slashes -- for a path of ordinary bytes and blanks. *)
Theorem C132_one_word : forall p, p <> [] -> Forall (fun c => ordinary c \/ c = " "%char) p ->
  exists r, to_output p = Some r /\ shell_words r = [one_each_but_first "/" p].
Proof.
  intros p NE F.
  assert (O : forall c, In c p -> c <> "000"%char /\ c <> "\"%char).
  { intros c I. rewrite Forall_forall in F. specialize (F c I). destruct F as [[A|[A|A]]|A].
    - split; intros ->; cbn in A; discriminate. - split; intros ->; cbn in A; discriminate.
    - split; intros ->; cbn in A; repeat (destruct A as [A|A]; [discriminate A|]); exact A.
    - subst; split; discriminate. }
  exists (guard false (one_each_but_first "/" p)). split. { apply C132_value. intro I. destruct (O _ I) as [A _]. apply A. reflexivity. }
  destruct p as [|x p]; [contradiction|]. unfold shell_words. cbn [one_each_but_first guard].
  assert (Hx : Ascii.eqb x "\" = false). { destruct (Ascii.eqb_spec x "\"); auto. exfalso. destruct (O x (or_introl eq_refl)) as [_ A]. auto. }
  assert (Hp : ~ In "\"%char (one_each "/" p)). { intro I. apply in_one_each in I. destruct (O _ (or_intror I)) as [_ A]. apply A. reflexivity. }
  rewrite Hx. destruct (Ascii.eqb x " ") eqn:B; cbn [andb negb app words].
  - change (Ascii.eqb "\" "\") with true. cbv iota. rewrite words_guard; auto.
  - rewrite Hx, B, words_guard; auto.
Qed.
Print Assumptions C132_one_word.

Fixpoint nodd (c : ascii) (s : str) : Prop :=
  match s with x :: ((y :: _) as r) => ~ (x = c /\ y = c) /\ nodd c r | _ => True end.
Lemma nodd_one_each c s : nodd c s -> one_each c s = s.
Proof.
  induction s as [|x s IH]; auto. destruct s as [|y s]; auto. intros [N H]. rewrite one_each_cons2.
  destruct (Ascii.eqb_spec x c); [destruct (Ascii.eqb_spec y c); [exfalso; apply N; auto|]|]; cbn [andb]; f_equal; apply IH; auto.
Qed.
Lemma one_each_hd c s : match one_each c s with [] => s = [] | x :: _ => exists r, s = x :: r end.
Proof.
  induction s as [|x s IH]; [reflexivity|]. destruct s as [|y s]; [exists []; auto|]. rewrite one_each_cons2.
  destruct (Ascii.eqb x c && Ascii.eqb y c)%bool eqn:E; [|eauto].
  apply andb_prop in E. destruct E as [Ex Ey]. apply Ascii.eqb_eq in Ex, Ey. subst x y.
  destruct (one_each c (c :: s)); [discriminate IH|]. destruct IH as (r & [= E1 E2]). subst. eauto.
Qed.
Lemma one_each_nodd c s : nodd c (one_each c s).
Proof.
  induction s as [|x s IH]; [exact I|]. destruct s as [|y s]; [exact I|]. rewrite one_each_cons2.
  destruct (Ascii.eqb x c && Ascii.eqb y c)%bool eqn:E; auto. cbn [nodd]. pose proof (one_each_hd c (y :: s)) as H.
  destruct (one_each c (y :: s)) as [|z t]; auto. split; auto. destruct H as (r & [= E1 E2]). subst. intros [-> ->].
  rewrite Ascii.eqb_refl in E. discriminate.
Qed.
Lemma one_each_idem c s : one_each c (one_each c s) = one_each c s.
Proof. apply nodd_one_each, one_each_nodd. Qed.
Lemma nodd_guard s : forall b, nodd "/" s -> nodd "/" (guard b s).
Proof.
  induction s as [|x s IH]; intros b H; cbn [guard]; auto.
  assert (H1 : nodd "/" s) by (destruct s; [exact I|apply H]).
  assert (H2 : nodd "/" (x :: guard (Ascii.eqb x "\") s)).
  { specialize (IH (Ascii.eqb x "\") H1). destruct s as [|y s]; [exact I|]. cbn [guard] in *. destruct H as [N _].
    destruct (Ascii.eqb y " " && _)%bool; cbn [app] in *; (split; [|exact IH]).
    - intros [_ E]; discriminate E. - exact N. }
  destruct (_ && _)%bool; cbn [app]; auto. split; auto. intros [E _]; discriminate E.
Qed.
Lemma guard_idem s : forall b, guard b (guard b s) = guard b s.
Proof.
  induction s as [|x s IH]; intros b; auto. cbn [guard]. destruct (Ascii.eqb x " ") eqn:B; destruct b; cbn [andb negb app guard]; rewrite ?B; cbn [andb negb app]; rewrite ?IH; auto.
Qed.
Lemma in_guard s : forall b x, In x (guard b s) -> x = "\"%char \/ In x s.
Proof.
  induction s as [|y s IH]; intros b x I; auto. cbn [guard] in I. apply in_app_or in I. destruct I as [I|[I|I]].
  - destruct (_ && _)%bool; [destruct I as [I|[]]; auto|destruct I]. - right; left; auto. - apply IH in I. destruct I; auto. right; right; auto.
Qed.
(** To convert twice is to convert once. *)
Theorem C132_idempotent : forall p, ~ In "000"%char p -> exists r, to_output p = Some r /\ to_output r = Some r.
Proof.
  intros p H. exists (guard false (one_each_but_first "/" p)). split. { apply C132_value; auto. }
  assert (NN : ~ In "000"%char (guard false (one_each_but_first "/" p))).
  { intro I. apply in_guard in I. destruct I as [I|I]; [discriminate I|]. apply H. destruct p as [|x p]; auto. destruct I as [I|I]; [left; auto|right]. apply in_one_each in I. auto. }
  rewrite (proj1 (C132_value _ NN)).
  f_equal. rewrite <- (guard_idem (one_each_but_first "/" p)) at 2. f_equal. destruct p as [|x p]; auto. cbn [one_each_but_first guard].
    assert (G : forall b, one_each "/" (guard b (one_each "/" p)) = guard b (one_each "/" p)) by (intro b; apply nodd_one_each, nodd_guard, one_each_nodd).
    destruct (Ascii.eqb x " ") eqn:B; cbn [andb negb app].
    + apply Ascii.eqb_eq in B. subst x. change (Ascii.eqb " " "\") with false. specialize (G false). cbn [one_each_but_first]. apply (f_equal (cons "\"%char)).
      destruct (guard false (one_each "/" p)) as [|z t]; auto. rewrite one_each_cons2. change (Ascii.eqb " " "/") with false. cbn [andb]. f_equal. exact G.
    + cbn [one_each_but_first]. f_equal. apply G.
Qed.
Print Assumptions C132_idempotent.

(** The comment in the code, "escape spaces and () in the path", is not true of
    it: a path without a blank is returned as it is but for its slashes,
    whatever else is in it. *)
Theorem C132_only_blanks_refuted : (forall p, ~ In " "%char p -> ~ In "000"%char p -> to_output p = Some (one_each_but_first "/" p)) /\
  to_output (L "a(b)$c;d") = Some (L "a(b)$c;d").
Proof.
  split; [|reflexivity]. intros p B N. rewrite (proj1 (C132_value p N)). f_equal. apply guard_none.
  apply Bool.not_true_iff_false. intro E. apply existsb_exists in E. destruct E as (x & I & E). apply Ascii.eqb_eq in E. subst x.
  apply B. destruct p as [|y p]; auto. destruct I as [I|I]; [left; auto|right]. apply in_one_each in I; auto.
Qed.
Print Assumptions C132_only_blanks_refuted.
(** A backslash of the path itself is taken for one already put there: for the
    file named a\ b (a, backslash, blank, b) the shell is given another name. *)
Theorem C132_backslash_refuted : forall a b, ~ In "\"%char a -> ~ In "\"%char b -> ~ In "000"%char (a ++ b) -> ~ In " "%char (a ++ b) -> ~ In "/"%char (a ++ b) ->
  to_output (a ++ L "\ " ++ b) = Some (a ++ L "\ " ++ b) /\ shell_words (a ++ L "\ " ++ b) = [a ++ L " " ++ b].
Proof.
  intros a b Ha Hb N B Sl. change (L "\ ") with ["\"; " "]%char. change (L " ") with [" "]%char.
  assert (G0 : forall s t, ~ In " "%char s -> ~ In "\"%char s -> guard false (s ++ t) = s ++ guard false t).
  { induction s as [|x s IH]; intros t H1 H2; auto. cbn [app guard]. destruct (Ascii.eqb_spec x " "); [exfalso; apply H1; left; auto|]. destruct (Ascii.eqb_spec x "\"); [exfalso; apply H2; left; auto|].
    cbn. f_equal. apply IH; intro; [apply H1|apply H2]; right; auto. }
  assert (O : forall s, (forall x, In x s -> x <> "/"%char) -> one_each_but_first "/" s = s).
  { intros [|x s] H; auto. cbn. f_equal. apply nodd_one_each. assert (H' : forall y, In y s -> y <> "/"%char) by (intros; apply H; right; auto). clear H.
    induction s as [|y s IH]; cbn; auto. destruct s; auto. split. - intros [E _]. apply (H' y); [left|]; auto. - apply IH. intros; apply H'; right; auto. }
  assert (Na : ~ In " "%char a) by (intro; apply B, in_or_app; auto). assert (Nb : ~ In " "%char b) by (intro; apply B, in_or_app; auto).
  split.
  - assert (NN : ~ In "000"%char (a ++ ["\"; " "]%char ++ b)) by (intro I; apply in_app_or in I; destruct I as [I|[I|[I|I]]]; try discriminate I; apply N, in_or_app; auto).
    rewrite (proj1 (C132_value _ NN)). f_equal.
    rewrite O. 2:{ intros x I ->. apply in_app_or in I. destruct I as [I|[I|[I|I]]]; try discriminate I; apply Sl, in_or_app; auto. }
    rewrite G0; auto. f_equal. cbn [app guard].
    change (Ascii.eqb "\" " ") with false. change (Ascii.eqb "\" "\") with true. change (Ascii.eqb " " " ") with true. change (Ascii.eqb " " "\") with false. cbn [andb negb app].
    do 2 f_equal. rewrite <- (app_nil_r b) at 1. rewrite G0; auto. cbn. apply app_nil_r.
  - assert (W : forall s t w, (forall x, In x s -> x <> " "%char /\ x <> "\"%char) -> words (Some w) (s ++ t) = words (Some (w ++ s)) t).
    { induction s as [|x s IH]; intros t w H; cbn [app words]. { rewrite app_nil_r; auto. } destruct (H x (or_introl eq_refl)) as [H1 H2].
      destruct (Ascii.eqb_spec x "\"); [contradiction|]. destruct (Ascii.eqb_spec x " "); [contradiction|]. rewrite IH; [|intros; apply H; right; auto]. rewrite <- app_assoc. reflexivity. }
    assert (Wb : forall w, words (Some w) b = [w ++ b]). { intro w. rewrite <- (app_nil_r b) at 1. rewrite W; auto. intros x I; split; intros ->; auto. }
    unfold shell_words. destruct a as [|x a].
    + cbn [app words]. change (Ascii.eqb "\" "\") with true. cbv iota. rewrite Wb. reflexivity.
    + cbn [app words]. destruct (Ascii.eqb_spec x "\"); [exfalso; apply Ha; left; auto|]. destruct (Ascii.eqb_spec x " "); [exfalso; apply Na; left; auto|].
      rewrite W. 2:{ intros z I; split; intros ->; [apply Na|apply Ha]; right; auto. }
      cbn [app words]. change (Ascii.eqb "\" "\") with true. cbv iota. rewrite Wb. cbn [app]. rewrite <- ?app_assoc. reflexivity.
Qed.
Print Assumptions C132_backslash_refuted.

(** ConvertToWindowsOutputPath: backslashes for slashes; runs of them become one
    but for a pair at the start (behind the quote, if there is one); a text of
    two bytes or more with a blank, that does not start with a quote, is put
    between quotes. *)
Definition both (x : ascii) : ascii := if Ascii.eqb x "/" then "\"%char else x.
Theorem C132_windows : forall p,
  (length p < 2 -> to_windows_output p = Some (map both p)) /\
  (forall x y r, p = """"%char :: x :: r -> y = both x -> to_windows_output p = Some (""""%char :: y :: one_each "\" (map both r))) /\
  (forall x y r, p = x :: y :: r -> x <> """"%char -> let s := both x :: one_each "\" (map both (y :: r)) in
     (In " "%char s -> to_windows_output p = Some (L """" ++ s ++ L """")) /\ (~ In " "%char s -> to_windows_output p = Some s)).
Proof.
  intros p. rewrite windows_total. change swap with both. split; [|split].
  - destruct p as [|x [|y p]]; auto. cbn; lia.
  - intros x y r -> ->. reflexivity.
  - intros x y r -> Hx. cbv zeta. cbn [map]. destruct (Ascii.eqb_spec (both x) """") as [E|_].
    { exfalso. unfold both in E. destruct (Ascii.eqb x "/"); [discriminate E|contradiction]. }
    split; intros I.
    + destruct (existsb _ _) eqn:X; auto. exfalso. apply Bool.not_true_iff_false in X. apply X, existsb_exists. exists " "%char. split; auto.
    + destruct (existsb _ _) eqn:X; auto. exfalso. apply existsb_exists in X. destruct X as (z & Iz & Ez). apply Ascii.eqb_eq in Ez. subst z. auto.
Qed.
Print Assumptions C132_windows.
Lemma map_both_id s : ~ In "/"%char s -> map both s = s.
Proof. induction s as [|x s IH]; intro H; auto. cbn. unfold both at 1. destruct (Ascii.eqb_spec x "/"); [exfalso; apply H; left; auto|]. f_equal. apply IH. intro; apply H; right; auto. Qed.
Lemma both_no s : ~ In "/"%char (map both s).
Proof. intro I. apply in_map_iff in I. destruct I as (x & E & _). unfold both in E. destruct (Ascii.eqb_spec x "/"); [discriminate E|contradiction]. Qed.
Lemma one_each_snoc c s z : z <> c -> one_each c (s ++ [z]) = one_each c s ++ [z].
Proof.
  intros H. induction s as [|x s IH]; auto. destruct s as [|y s].
  - cbn [app one_each]. destruct (Ascii.eqb_spec z c); [contradiction|]. rewrite Bool.andb_false_r. reflexivity.
  - cbn [app] in *. rewrite !one_each_cons2. destruct (_ && _)%bool; auto. cbn [app]. f_equal. exact IH.
Qed.
(** The result has no slash, and converting it again changes nothing. *)
Theorem C132_windows_idempotent : forall p, exists r, to_windows_output p = Some r /\ ~ In "/"%char r /\ to_windows_output r = Some r.
Proof.
  intros p. rewrite windows_total. change swap with both. eexists; split; [reflexivity|]. pose proof (both_no p) as N.
  destruct (map both p) as [|x [|y t]]. { split; auto. }
  { split; auto. rewrite windows_total. change swap with both. rewrite map_both_id; auto. }
  assert (N1 : x <> "/"%char) by (intros ->; apply N; left; auto).
  assert (N2 : y <> "/"%char) by (intros ->; apply N; right; left; auto).
  assert (N3 : ~ In "/"%char t) by (intro; apply N; right; right; auto).
  destruct (Ascii.eqb x """") eqn:Q.
  - assert (M : ~ In "/"%char (x :: y :: one_each "\" t)) by (intros [I|[I|I]]; [auto|auto|apply in_one_each in I; auto]).
    split; [exact M|]. rewrite windows_total. change swap with both. rewrite map_both_id; [|exact M]. rewrite Q, one_each_idem. reflexivity.
  - assert (M : ~ In "/"%char (x :: one_each "\" (y :: t))). { intros [I|I]; [auto|]. apply in_one_each in I. destruct I as [I|I]; auto. }
    pose proof (one_each_idem "\" (y :: t)) as ID.
    destruct (existsb _ _) eqn:B.
    + assert (M' : ~ In "/"%char (""""%char :: (x :: one_each "\" (y :: t)) ++ [""""%char])).
      { intros [I|I]; [discriminate I|]. apply in_app_or in I. destruct I as [I|[I|[]]]; [auto|discriminate I]. }
      split; [exact M'|]. rewrite windows_total. change swap with both. rewrite map_both_id; [|exact M']. cbn [app].
      change (Ascii.eqb """" """") with true. cbv iota. rewrite one_each_snoc; [|discriminate]. rewrite ID. reflexivity.
    + split; [exact M|]. rewrite windows_total. change swap with both. rewrite map_both_id; [|exact M].
      destruct (one_each "\" (y :: t)) as [|z u] eqn:O. { pose proof (one_each_hd "\" (y :: t)) as H. rewrite O in H. discriminate H. }
      rewrite Q, ID, B. reflexivity.
Qed.
Print Assumptions C132_windows_idempotent.
(** Not every text with a blank is quoted: a single blank is not, nor is one that
    starts with a quote that is not closed. *)
Theorem C132_quoted_refuted : to_windows_output (L " ") = Some (L " ") /\ forall s, ~ In "/"%char s -> ~ In "\"%char s -> to_windows_output (""""%char :: "a"%char :: s) = Some (""""%char :: "a"%char :: s).
Proof.
  split; [reflexivity|]. intros s H1 H2. rewrite (proj1 (proj2 (C132_windows _)) "a"%char "a"%char s eq_refl eq_refl). rewrite map_both_id; auto. do 3 f_equal.
  apply nodd_one_each. induction s as [|x s IH]; cbn; auto. destruct s; auto. split; [intros [E _]; subst; apply H2; left; auto|].
  apply IH; intro; [apply H1|apply H2]; right; auto.
Qed.
Print Assumptions C132_quoted_refuted.

Example C132_ex : to_output (L "//net//my dir///a b") = Some (L "//net/my\ dir/a\ b") /\ shell_words (L "//net/my\ dir/a\ b") = [L "//net/my dir/a b"] /\
  Forall (fun c => ordinary c \/ c = " "%char) (L "/my dir") /\
  to_windows_output (L "//net//my dir/") = Some (L """\\net\my dir\""") /\ to_windows_output (L """c://x""") = Some (L """c:\x""").
Proof.
  split; [vm_compute; reflexivity|]. split; [vm_compute; reflexivity|]. split; [|split; vm_compute; reflexivity].
  change (L "/my dir") with ["/"; "m"; "y"; " "; "d"; "i"; "r"]%char.
  repeat (apply Forall_cons; [first [right; reflexivity | left; left; reflexivity | left; right; right; left; reflexivity]|]). apply Forall_nil.
Qed.
