From Verif Require Import Base TokenizeModel TokenizeSpec.

Lemma is_delim_true ds c : is_delim ds c = true <-> In c ds.
Proof.
  unfold is_delim. rewrite existsb_exists. split.
  - intros (x & Hx & E). apply Ascii.eqb_eq in E. subst. auto.
  - intro H. exists c. split; auto. apply Ascii.eqb_refl.
Qed.
(** The structural split. *)
Fixpoint split (p : ascii -> bool) (s : str) : list str :=
  match s with
  | [] => [[]]
  | c :: r => if p c then [] :: split p r
              else match split p r with t :: ts => (c :: t) :: ts | [] => [[c]] end
  end.
Lemma split_cons p s : exists t ts, split p s = t :: ts.
Proof. destruct s as [|c s]; cbn; [eauto|]. destruct (p c); [eauto|]. destruct (split p s); eauto. Qed.
Lemma split_app p a c b : p c = true -> split p (a ++ c :: b) = split p a ++ split p b.
Proof.
  intro H. induction a as [|x a IH]; cbn [app split].
  - rewrite H. reflexivity.
  - destruct (p x); rewrite IH; [reflexivity|]. destruct (split_cons p a) as (t & ts & ->). reflexivity.
Qed.
Lemma split_none p a : forallb (fun c => negb (p c)) a = true -> split p a = [a].
Proof.
  induction a as [|x a IH]; cbn; [reflexivity|]. intro H. apply andb_prop in H as [H1 H2]. destruct (p x); [discriminate|].
  rewrite IH; auto.
Qed.
Lemma split_splits p s : splits (fun c => p c = true) s (split p s).
Proof.
  induction s as [|c s IH]; cbn [split].
  - constructor. intros ? [].
  - destruct (p c) eqn:E.
    + apply (sp_more _ []); auto.
    + inversion IH as [t Ht E1|t c' s' ts Ht Hc Hs E1 E2].
      * constructor. intros x [<-|Hx]; [congruence|]. apply Ht; auto.
      * change (c :: t ++ c' :: s') with ((c :: t) ++ c' :: s'). constructor; auto. intros x [<-|Hx]; [congruence|]. apply Ht; auto.
Qed.
Lemma splits_split p s ts : splits (fun c => p c = true) s ts -> ts = split p s.
Proof.
  assert (F : forall t, (forall x, In x t -> p x <> true) -> forallb (fun c => negb (p c)) t = true).
  { intros t H. apply forallb_forall. intros x Hx. specialize (H x Hx). destruct (p x); auto. }
  induction 1 as [t Ht|t c s ts Ht Hc Hs IH].
  - symmetry. apply split_none, F, Ht.
  - rewrite split_app by auto. rewrite (split_none p t) by (apply F, Ht). subst ts. reflexivity.
Qed.
Lemma splits_iff d p s ts : (forall c, d c <-> p c = true) -> (splits d s ts <-> ts = split p s).
Proof.
  intro H. split.
  - intro X. apply splits_split. induction X; constructor; auto.
    + intros c Hc E. apply (H0 c Hc). apply H, E. + intros c' Hc E. apply (H0 c' Hc). apply H, E. + apply H; auto.
  - intros ->. pose proof (split_splits p s) as X. induction X; constructor; auto.
    + intros c Hc E. apply (H0 c Hc). apply H, E. + intros c' Hc E. apply (H0 c' Hc). apply H, E. + apply H; auto.
Qed.

Lemma push_eq b acc t : push b acc t = acc ++ (if b then filter nonempty [t] else [t]).
Proof. unfold push, nonempty. destruct b, t; cbn; rewrite ?app_nil_r; reflexivity. Qed.
Lemma tokenize_f_eq ds b : forall n s acc, length s < n ->
  tokenize_f n s acc ds b = acc ++ (if b then filter nonempty (split (is_delim ds) s) else split (is_delim ds) s).
Proof.
  induction n as [|n IH]; intros s acc Hn; [lia|]. cbn [tokenize_f].
  set (q := fun c => negb (is_delim ds c)).
  pose proof (take_drop_while q s) as E. pose proof (take_while_forall q s) as F.
  destruct (drop_while q s) as [|c rest] eqn:D.
  - rewrite app_nil_r in E. rewrite E in *. rewrite (split_none _ s) by exact F. apply push_eq.
  - assert (Hc : is_delim ds c = true) by (apply drop_while_head in D; unfold q in D; destruct (is_delim ds c); auto; discriminate).
    rewrite IH. 2:{ pose proof (drop_while_length q s) as X. rewrite D in X. cbn in X. lia. }
    rewrite push_eq, <- app_assoc. f_equal.
    assert (ES : split (is_delim ds) s = [take_while q s] ++ split (is_delim ds) rest).
    { rewrite <- E at 1. rewrite split_app by auto. rewrite (split_none _ (take_while q s)) by exact F. reflexivity. }
    rewrite ES. destruct b; [rewrite filter_app|]; reflexivity.
Qed.
Lemma tokenize_eq s acc ds b : tokenize s acc ds b =
  acc ++ (if b then filter nonempty (split (is_delim ds) s) else split (is_delim ds) s).
Proof. apply tokenize_f_eq. lia. Qed.

Lemma tokenize_splits s old ds : exists ts, splits (fun c => In c ds) s ts /\
  tokenize s old ds false = old ++ ts /\ tokenize s old ds true = old ++ filter nonempty ts.
Proof.
  exists (split (is_delim ds) s). split; [|split; apply tokenize_eq].
  apply (splits_iff _ (is_delim ds)); auto. intro c. symmetry. apply is_delim_true.
Qed.
Lemma splits_unique d s t1 t2 : (forall c, {d c} + {~ d c}) -> splits d s t1 -> splits d s t2 -> t1 = t2.
Proof.
  intros dec H1 H2. assert (E : forall c, d c <-> (if dec c then true else false) = true) by (intro c; destruct (dec c); intuition congruence).
  apply (splits_iff d _ s t1 E) in H1. apply (splits_iff d _ s t2 E) in H2. congruence.
Qed.
Lemma splits_join c s ts : splits (eq c) s ts -> join c ts = s /\ length ts = S (count c s) /\ Forall (fun t => ~ In c t) ts.
Proof.
  unfold count. induction 1 as [t Ht|t c' s ts Ht Hc Hs (J & N & F)].
  - split; auto. split; [|constructor; auto; intro Hin; apply (Ht c); auto].
    cbn. f_equal. induction t as [|x t IH]; cbn; auto. destruct (Ascii.eqb_spec c x) as [->|_].
    + destruct (Ht x); cbn; auto. + apply IH. intros y Hy. apply Ht. right; auto.
  - subst c'. split; [|split].
    + destruct ts; [discriminate|]. cbn [join] in *. rewrite J. reflexivity.
    + rewrite filter_app, app_length. cbn [filter]. rewrite Ascii.eqb_refl. cbn [length]. rewrite N.
      assert (filter (Ascii.eqb c) t = []) as ->.
      { induction t as [|x t IH]; cbn; auto. destruct (Ascii.eqb_spec c x) as [->|_].
        + destruct (Ht x); cbn; auto. + apply IH. intros y Hy. apply Ht. right; auto. }
      reflexivity.
    + constructor; auto. intro Hin. apply (Ht c); auto.
Qed.
