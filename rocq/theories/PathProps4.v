(** PathProps4.v -- C84 (the tilde and the trailing slash), C85 (the translation table). *)
From Coq Require Import List Ascii Bool Arith Lia.
Import ListNotations.
From Verif Require Import Base PathModel PathSpec PathProofs PathProps PathProps2.

(** ---- specification ---- *)
(** [q] without its trailing slash; "/" and a drive "x:/" keep theirs. *)
Inductive unslashed : str -> str -> Prop :=
| us_drop r : r <> [] -> (forall x, r <> [x; ":"%char]) -> unslashed (r ++ ["/"%char]) r
| us_drive x : unslashed [x; ":"; "/"]%char [x; ":"; "/"]%char
| us_root : unslashed ["/"%char] ["/"%char]
| us_keep q : (forall r, q <> r ++ ["/"%char]) -> unslashed q q.

Lemma unslashed_strip q : unslashed q (strip_trailing q).
Proof.
  unfold strip_trailing. destruct q as [|c r _] using rev_ind; [apply us_keep; intros r E; destruct r; discriminate|]. rewrite last_last, removelast_last. rewrite app_length. cbn [length].
  destruct (Ascii.eqb_spec c slash) as [->|N]; rewrite ?andb_true_r, ?andb_false_r; cbn [andb]; [|apply us_keep; intros r' E; apply app_inj_tail in E as [_ ->]; apply N; reflexivity].
  destruct r as [|a r]; [apply us_root|]. cbn [length]. replace (1 <? S (length r) + 1) with true by (symmetry; apply Nat.ltb_lt; lia). cbn [andb].
  destruct (Nat.eqb_spec (S (length r) + 1) 3) as [E|E]; cbn [andb].
  - destruct r as [|b [|? ?]]; cbn [length] in E; try lia. cbn [app nth]. destruct (Ascii.eqb_spec b ":"%char) as [->|N]; cbn [negb]; [apply us_drive|]. change [a; b; slash] with ([a; b] ++ ["/"%char]). apply us_drop; [discriminate|]. intros x Q. injection Q as _ ->. apply N. reflexivity.
  - cbn [negb]. apply us_drop; [discriminate|]. intros x Q. injection Q as _ ->. cbn in E. lia.
Qed.
Lemma user_cut user rest : ~ In slash user -> match rest with [] => True | c :: _ => c = slash end ->
  take_while (fun x => negb (Ascii.eqb x slash)) (user ++ rest) = user /\ drop_while (fun x => negb (Ascii.eqb x slash)) (user ++ rest) = rest.
Proof.
  intros N R. induction user as [|c user IH]; cbn [app].
  - destruct rest as [|c rest]; [split; reflexivity|]. subst c. split; reflexivity.
  - cbn [take_while drop_while]. destruct (Ascii.eqb_spec c slash) as [->|_]; [elim N; now left|]. cbn [negb]. destruct IH as [-> ->]; [intro I; apply N; now right|]. split; reflexivity.
Qed.

(** A leading "~" stands for $HOME, "~user" for the home directory of that user; both
    stay as they are if there is none. *)
Theorem C84_tilde e user rest : ~ In "/"%char user -> match rest with [] => True | c :: _ => c = "/"%char end ->
  let p := "~"%char :: user ++ rest in ~ In backslash p -> two_slashes p = false ->
  exists q, convert_to_unix_slashes e p = Some q /\
    unslashed (match (match user with [] => e_home e | _ => e_pw e user end) with Some d => d ++ rest | None => p end) q.
Proof.
  intros Nu Hr p Hb H2. change "/"%char with slash in *. unfold convert_to_unix_slashes. rewrite conv_id by exact Hb.
  assert (has_double_slash p = false) as ->. { unfold has_double_slash, p. unfold p in H2. cbn [two_slashes] in H2. apply orb_false_iff in H2 as [_ H2]. exact H2. }
  cbv iota. unfold p at 1. cbv iota. fold p. eexists. split; [reflexivity|]. replace (expand_tilde e p) with (match (match user with [] => e_home e | _ => e_pw e user end) with Some d => d ++ rest | None => p end); [apply unslashed_strip|].
  unfold p, expand_tilde. change (Ascii.eqb "~" "~") with true. cbv iota. destruct (user_cut user rest Nu Hr) as [T D]. destruct user as [|u user].
  - destruct rest as [|c rest]; cbn [app]; [reflexivity|]. subst c. rewrite Ascii.eqb_refl. reflexivity.
  - cbn [app]. destruct (Ascii.eqb_spec u slash) as [->|_]; [elim Nu; now left|]. cbn [app] in T, D. rewrite T, D. reflexivity.
Qed.
Print Assumptions C84_tilde.
(** Every conversion drops at most one slash, at the end. *)
Theorem C84_trailing e p : ~ In backslash p -> two_slashes p = false -> (forall r, p <> "~"%char :: r) -> p <> [] -> exists q, convert_to_unix_slashes e p = Some q /\ unslashed p q.
Proof.
  intros Hb H2 Ht N. unfold convert_to_unix_slashes. rewrite conv_id by exact Hb. destruct p as [|c p]; [congruence|].
  assert (has_double_slash (c :: p) = false) as ->. { unfold has_double_slash. cbn [two_slashes] in H2. apply orb_false_iff in H2 as [_ H2]. exact H2. }
  cbv iota. eexists. split; [reflexivity|]. replace (expand_tilde e (c :: p)) with (c :: p); [apply unslashed_strip|]. unfold expand_tilde. destruct (Ascii.eqb_spec c "~"%char) as [->|_]; [elim (Ht p); reflexivity|reflexivity].
Qed.
Print Assumptions C84_trailing.
Example C84_tilde_ex : let e := mkPenv (Some (L "/home/me")) (fun u => if str_eqb u (L "ann") then Some (L "/h/ann") else None) None (fun _ => None) (fun _ => false) (fun _ => false) [] in
  convert_to_unix_slashes e (L "~") = Some (L "/home/me") /\ convert_to_unix_slashes e (L "~/x/") = Some (L "/home/me/x") /\ convert_to_unix_slashes e (L "~ann/y") = Some (L "/h/ann/y") /\ convert_to_unix_slashes e (L "~bob/y/") = Some (L "~bob/y") /\
  convert_to_unix_slashes e (L "c:/") = Some (L "c:/") /\ convert_to_unix_slashes e (L "/") = Some (L "/").
Proof. vm_compute. repeat split. Qed.

(** ---- the translation table ---- *)
(** The directory [a] and everything in it is called [b]. *)
Inductive renamed (a b : str) : str -> str -> Prop :=
| rn_self : renamed a b a b
| rn_below r : renamed a b (a ++ "/"%char :: r) (b ++ "/"%char :: r)
| rn_other p : p <> a -> (forall r, p <> a ++ "/"%char :: r) -> renamed a b p p.
Inductive renamed_all : list (str * str) -> str -> str -> Prop :=
| ra_nil p : renamed_all [] p p
| ra_cons a b t p q r : renamed a b p q -> renamed_all t q r -> renamed_all ((a, b) :: t) p r.
Definition tr_step (p : str) (ab : str * str) : str := if is_prefix (fst ab) p then snd ab ++ skipn (length (fst ab)) p else p.
Lemma renamed_fun a b p q q' : renamed a b p q -> renamed a b p q' -> q = q'.
Proof.
  assert (I : forall q, renamed a b p q -> (p = a /\ q = b) \/ (exists r, p = a ++ "/"%char :: r /\ q = b ++ "/"%char :: r) \/ (q = p /\ p <> a /\ forall r, p <> a ++ "/"%char :: r)).
  { intros x H. destruct H as [|r|x A B]; [left; auto|right; left; eauto|right; right; auto]. }
  assert (N : forall r, a <> a ++ "/"%char :: r). { intros r E. apply (f_equal (@length ascii)) in E. rewrite app_length in E. cbn in E. lia. }
  intros H H'. destruct (I q H) as [(A & B)|[(r & A & B)|(A & B & C)]].
  - destruct (I q' H') as [(A' & B')|[(r' & A' & B')|(A' & B' & C')]]; [rewrite B, B'; reflexivity|elim (N r'); rewrite <- A at 1; exact A'|elim (B' A)].
  - destruct (I q' H') as [(A' & B')|[(r' & A' & B')|(A' & B' & C')]]; [elim (N r); rewrite <- A' at 1; exact A|rewrite A in A'; apply app_inv_head in A'; injection A' as ->; rewrite B, B'; reflexivity|elim (C' r A)].
  - destruct (I q' H') as [(A' & B')|[(r' & A' & B')|(A' & B' & C')]]; [elim (B A')|elim (C r' A')|rewrite A, A'; reflexivity].
Qed.
Lemma is_prefix_app_inv a s : is_prefix a s = true -> exists t, s = a ++ t.
Proof. revert s. induction a as [|c a IH]; intros s H; [exists s; reflexivity|]. destruct s as [|d s]; [discriminate|]. cbn in H. apply andb_prop in H as [H1 H2]. apply Ascii.eqb_eq in H1 as ->. destruct (IH s H2) as [t ->]. exists t. reflexivity. Qed.
Lemma skipn_len_app (a t : str) : skipn (length a) (a ++ t) = t.
Proof. rewrite skipn_app, skipn_all, Nat.sub_diag. reflexivity. Qed.
Lemma tr_step_renamed a b p : exists q, tr_step (p ++ [slash]) (a ++ [slash], b ++ [slash]) = q ++ [slash] /\ renamed a b p q.
Proof.
  unfold tr_step. cbn [fst snd]. destruct (is_prefix (a ++ [slash]) (p ++ [slash])) eqn:E.
  - apply is_prefix_app_inv in E as [t E]. rewrite E, skipn_len_app. destruct t as [|c t _] using rev_ind.
    + rewrite app_nil_r in E. apply app_inj_tail in E as [-> _]. exists b. rewrite app_nil_r. split; [reflexivity|apply rn_self].
    + rewrite app_assoc in E. apply app_inj_tail in E as [-> <-]. exists (b ++ slash :: t). rewrite <- !app_assoc. cbn [app]. split; [reflexivity|apply rn_below].
  - exists p. split; [reflexivity|]. apply rn_other.
    + intros ->. assert (is_prefix (a ++ [slash]) (a ++ [slash]) = true) by (rewrite <- (app_nil_r (a ++ [slash])) at 2; apply is_prefix_self). congruence.
    + intros r ->. assert (is_prefix (a ++ [slash]) ((a ++ "/"%char :: r) ++ [slash]) = true); [|congruence]. apply is_prefix_app. exists (r ++ [slash]). rewrite <- !app_assoc. reflexivity.
Qed.
(** A path of two characters or more is renamed by each entry of the table in turn, in
    the order of their keys; a name that only starts like a key is left alone. *)
Theorem C85_translation e table p : e_trans e = map (fun ab => (fst ab ++ ["/"%char], snd ab ++ ["/"%char])) table ->
  (length p < 2 -> check_translation e p = p) /\
  (2 <= length p -> forall q, check_translation e p = q <-> renamed_all table p q).
Proof.
  intro E. unfold check_translation. split; [intro H; apply Nat.ltb_lt in H; rewrite H; reflexivity|]. intro H. replace (length p <? 2) with false by (symmetry; apply Nat.ltb_ge; exact H). rewrite E.
  change (fun (p : str) (ab : str * str) => if is_prefix (fst ab) p then snd ab ++ skipn (length (fst ab)) p else p) with tr_step. clear E H.
  assert (X : forall p, exists q, fold_left tr_step (map (fun ab => (fst ab ++ ["/"%char], snd ab ++ ["/"%char])) table) (p ++ [slash]) = q ++ [slash] /\ renamed_all table p q).
  { induction table as [|[a b] t IH]; intro p0; cbn [map fold_left]; [exists p0; split; [reflexivity|apply ra_nil]|]. cbn [fst snd]. destruct (tr_step_renamed a b p0) as (q & Q & R). change slash with "/"%char in Q |- *. rewrite Q. change "/"%char with slash in IH |- *. destruct (IH q) as (r & -> & R'). exists r. split; [reflexivity|]. eapply ra_cons; eassumption. }
  assert (F : forall p q q', renamed_all table p q -> renamed_all table p q' -> q = q').
  { clear. induction table as [|[a b] t IH]; intros p q q' A B; inversion A; subst; inversion B; subst; [reflexivity|]. match goal with A1 : renamed a b p ?x, B1 : renamed a b p ?y |- _ => rewrite (renamed_fun _ _ _ _ _ A1 B1) in * end. eauto. }
  intro q. destruct (X p) as (q0 & Q & R). apply (f_equal (@removelast ascii)) in Q. rewrite removelast_last in Q. match goal with |- ?t = q <-> _ => assert (t = q0) as -> by exact Q end. split; [intros <-; exact R|]. intro R'. eapply F; eassumption.
Qed.
Print Assumptions C85_translation.
Example C85_translation_ex : let e := mkPenv None (fun _ => None) None (fun _ => None) (fun _ => false) (fun _ => false) [(L "/mnt/d1/u/", L "/u/"); (L "/u/x/", L "/x/")] in
  check_translation e (L "/mnt/d1/u/a") = L "/u/a" /\ check_translation e (L "/mnt/d1/u") = L "/u" /\ check_translation e (L "/mnt/d1/us") = L "/mnt/d1/us" /\ check_translation e (L "/mnt/d1/u/x/y") = L "/x/y".
Proof. vm_compute. repeat split. Qed.
