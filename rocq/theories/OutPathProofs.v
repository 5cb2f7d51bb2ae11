From Verif Require Import Base OutPathModel OutPathSpec.
From Coq Require Import Lia.

Lemma skipn_app_len {A} (a b : list A) : skipn (length a) (a ++ b) = b.
Proof. induction a; cbn; auto. Qed.
Lemma firstn_app_len {A} (a b : list A) : firstn (length a) (a ++ b) = a.
Proof. induction a; cbn; auto. f_equal; auto. Qed.
Lemma find_at_app pat a s : find_at pat (a ++ s) (length a) = match find_first pat s with Some k => Some (length a + k) | None => None end.
Proof. unfold find_at. rewrite skipn_app_len. reflexivity. Qed.

Definition dd (c : ascii) : str := [c; c].
Lemma prefix_dd c s : is_prefix (dd c) s = match s with x :: y :: _ => Ascii.eqb c x && Ascii.eqb c y | _ => false end.
Proof. destruct s as [|x [|y s]]; cbn; auto; [rewrite Bool.andb_false_r; auto| rewrite Bool.andb_true_r; auto]. Qed.
Lemma one_each_cons2 c x y r : one_each c (x :: y :: r) = if (Ascii.eqb x c && Ascii.eqb y c)%bool then one_each c (y :: r) else x :: one_each c (y :: r).
Proof. reflexivity. Qed.
Lemma first_dd_none c s : find_first (dd c) s = None -> one_each c s = s.
Proof.
  induction s as [|x s IH]; auto. cbn [find_first]. rewrite prefix_dd. destruct s as [|y s]; auto.
  rewrite one_each_cons2, (Ascii.eqb_sym c x), (Ascii.eqb_sym c y). destruct (Ascii.eqb x c && Ascii.eqb y c)%bool; [discriminate|].
  destruct (find_first (dd c) (y :: s)); [discriminate|]. intros _. f_equal. apply IH; auto.
Qed.
Lemma first_dd_some c s : forall k, find_first (dd c) s = Some k -> exists a b, s = a ++ c :: c :: b /\ length a = k /\ one_each c s = a ++ one_each c (c :: b).
Proof.
  induction s as [|x s IH]; intros k; [discriminate|]. cbn [find_first]. rewrite prefix_dd. destruct s as [|y s]; [discriminate|].
  rewrite one_each_cons2, (Ascii.eqb_sym c x), (Ascii.eqb_sym c y).
  destruct (Ascii.eqb x c && Ascii.eqb y c)%bool eqn:E.
  - intros [= <-]. apply andb_prop in E. destruct E as [Ex Ey]. apply Ascii.eqb_eq in Ex, Ey. subst. exists [], s. auto.
  - destruct (find_first (dd c) (y :: s)) as [k'|] eqn:F; [|discriminate]. intros [= <-].
    destruct (IH k' eq_refl) as (a & b & E1 & E2 & E3). exists (x :: a), b. rewrite E3, E1. cbn. auto.
Qed.
Lemma squeeze_spec c : forall fuel a s, length s < fuel -> squeeze fuel (dd c) (a ++ s) (length a) = Some (a ++ one_each c s).
Proof.
  induction fuel as [|fuel IH]; intros a s H; [lia|]. cbn [squeeze]. rewrite find_at_app.
  destruct (find_first (dd c) s) as [k|] eqn:F.
  - destruct (first_dd_some c s k F) as (x & b & E1 & E2 & E3). rewrite E3. subst s k.
    unfold erase1. replace (S (length a + length x)) with (length ((a ++ x) ++ [c])) by (rewrite !app_length; cbn; lia).
    replace (a ++ x ++ c :: c :: b) with (((a ++ x) ++ [c]) ++ c :: b) by (rewrite <- !app_assoc; reflexivity).
    rewrite skipn_app_len. rewrite <- (app_assoc (a ++ x)). rewrite <- app_length, firstn_app_len.
    rewrite IH. 2:{ rewrite app_length in H. cbn in H. cbn. lia. }
    rewrite <- app_assoc. reflexivity.
  - rewrite first_dd_none; auto.
Qed.
Lemma squeeze_short c fuel s n : length s <= n -> squeeze (S fuel) (dd c) s n = Some s.
Proof. intros H. cbn [squeeze]. unfold find_at. rewrite skipn_all2; auto. Qed.

Lemma find_slash_none s : find_first [oslash] s = None -> map (fun x => if Ascii.eqb x oslash then bslash else x) s = s.
Proof.
  induction s as [|x s IH]; auto. cbn [find_first is_prefix map]. rewrite Bool.andb_true_r, (Ascii.eqb_sym oslash x). destruct (Ascii.eqb x oslash); [discriminate|].
  destruct (find_first [oslash] s); [discriminate|]. intros _. f_equal. auto.
Qed.
Lemma find_slash_some s : forall k, find_first [oslash] s = Some k -> exists a b, s = a ++ oslash :: b /\ length a = k /\ map (fun x => if Ascii.eqb x oslash then bslash else x) a = a.
Proof.
  induction s as [|x s IH]; intros k; [discriminate|]. cbn [find_first is_prefix]. rewrite Bool.andb_true_r, (Ascii.eqb_sym oslash x). destruct (Ascii.eqb x oslash) eqn:E.
  - intros [= <-]. apply Ascii.eqb_eq in E. subst. exists [], s. auto.
  - destruct (find_first [oslash] s) as [k'|] eqn:F; [|discriminate]. intros [= <-]. destruct (IH k' eq_refl) as (a & b & E1 & E2 & E3).
    exists (x :: a), b. subst. cbn [map app length]. rewrite E, E3. auto.
Qed.
Lemma lupd_app {A} (a : list A) x y b : lupd (a ++ x :: b) (length a) y = a ++ y :: b.
Proof. induction a; cbn; auto. f_equal; auto. Qed.
Lemma backslashes_spec : forall fuel a s, length s < fuel -> to_backslashes fuel (a ++ s) (length a) = Some (a ++ map (fun x => if Ascii.eqb x oslash then bslash else x) s).
Proof.
  induction fuel as [|fuel IH]; intros a s H; [lia|]. cbn [to_backslashes]. rewrite find_at_app.
  destruct (find_first [oslash] s) as [k|] eqn:F.
  - destruct (find_slash_some s k F) as (x & b & E1 & E2 & E3). subst s k.
    rewrite app_assoc, <- app_length, lupd_app.
    replace (S (length (a ++ x))) with (length ((a ++ x) ++ [bslash])) by (rewrite !app_length; cbn; lia).
    change (bslash :: b) with ([bslash] ++ b). rewrite app_assoc, IH. 2:{ rewrite app_length in H. cbn in H. lia. }
    rewrite map_app, E3. cbn [map]. change (Ascii.eqb oslash oslash) with true. rewrite <- !app_assoc. reflexivity.
  - rewrite find_slash_none; auto.
Qed.
Lemma escape_guard s : forall l, ~ In "000"%char s -> escape l s = guard (Ascii.eqb l "\") s.
Proof.
  induction s as [|c s IH]; intros l H; auto. cbn [escape guard]. destruct (Ascii.eqb_spec c "000"); [exfalso; apply H; left; auto|].
  rewrite IH; [reflexivity|]. intro; apply H; right; auto.
Qed.
Lemma guard_none s : forall b, existsb (Ascii.eqb blank) s = false -> guard b s = s.
Proof.
  induction s as [|c s IH]; intros b H; auto. cbn [existsb] in H. apply Bool.orb_false_iff in H. destruct H as [E H].
  cbn [guard]. rewrite Ascii.eqb_sym in E. unfold blank in E. rewrite E. cbn. f_equal. auto.
Qed.
Lemma unix_total p : ~ In "000"%char p -> to_unix_output p = Some (guard false (one_each_but_first "/" p)).
Proof.
  intros H. unfold to_unix_output.
  assert (E : squeeze (S (length p)) [oslash; oslash] p 1 = Some (one_each_but_first "/" p)).
  { destruct p as [|x p]. { reflexivity. } apply (squeeze_spec "/" (S (length (x :: p))) [x] p). cbn; lia. }
  rewrite E. destruct (existsb (Ascii.eqb blank) (one_each_but_first "/" p)) eqn:B.
  - rewrite escape_guard; [reflexivity|].
    assert (G : forall s c, In c (one_each "/" s) -> In c s).
    { induction s as [|x s IH]; auto. intros c. destruct s as [|y s]; auto. rewrite one_each_cons2. destruct (_ && _)%bool.
      - intro I. right. auto. - intros [I|I]; [left; auto|right; auto]. }
    destruct p as [|x p]; auto. intros [I|I]; apply H; [left; auto|right; auto].
  - rewrite guard_none; auto.
Qed.
Definition swap (x : ascii) : ascii := if Ascii.eqb x "/" then "\"%char else x.
Lemma windows_total p : to_windows_output p = Some (
  match map swap p with
  | [] => [] | [x] => [x]
  | x :: y :: r => if Ascii.eqb x """" then x :: y :: one_each "\" r
                   else if existsb (Ascii.eqb " ") (x :: one_each "\" (y :: r)) then """"%char :: (x :: one_each "\" (y :: r)) ++ [""""%char]
                   else x :: one_each "\" (y :: r)
  end).
Proof.
  unfold to_windows_output. pose proof (backslashes_spec (S (length p)) [] p ltac:(lia)) as B. cbn [app length] in B.
  rewrite B. change (map (fun x => if Ascii.eqb x oslash then bslash else x) p) with (map swap p).
  destruct (map swap p) as [|x [|y r]]; auto. cbn [length Nat.ltb Nat.leb]. cbn [nth]. change quote with """"%char.
  destruct (Ascii.eqb x """") eqn:Q.
  - destruct r as [|z r]. { cbn. reflexivity. }
    change (true && _)%bool with false. cbv iota.
    pose proof (squeeze_spec "\" (S (S (S (length (z :: r))))) [x; y] (z :: r) ltac:(cbn; lia)) as S. cbn [app length] in S.
    change [bslash; bslash] with (dd "\"). cbn [length]. rewrite S. cbn [nth]. rewrite Q. rewrite Bool.andb_false_r. reflexivity.
  - cbn [andb].
    pose proof (squeeze_spec "\" (S (S (S (length r)))) [x] (y :: r) ltac:(cbn; lia)) as S. cbn [app length] in S.
    change [bslash; bslash] with (dd "\"). rewrite S. cbn [nth]. rewrite Q. cbn [negb]. rewrite Bool.andb_true_r. destruct (existsb _ _); reflexivity.
Qed.
