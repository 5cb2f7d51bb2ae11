(** TransProps.v -- C120: directories keep the names their user calls them by. *)
From Coq Require Import Ascii String List Bool Arith Lia.
Import ListNotations.
From Verif Require Import Base PathModel PathSpec PathProofs PathProps PathProps2 PathProps4 TreeModel TreeSpec TreeProofs TransModel TransProofs.

(** ---- proofs: every entry is a place and a name of it ---- *)
Definition names_place (f : fsys) (kv : str * str) : Prop :=
  exists l b, kv = (body l ++ [slash], b ++ [slash]) /\ is_abs b = true /\ names_ok l /\ at_place f l = Some KDir /\ walk f true MAXLINKS (cut [] b) [] = inl l.
Lemma In_sset (k v : str) t x : In x (sset k v t) -> x = (k, v) \/ In x t.
Proof.
  unfold sset. induction t as [|[k' v'] t IH]; cbn [m_set]; [intros [<-|[]]; left; reflexivity|]. destruct (str_cmp k k').
  - intros [<-|I]; [left; reflexivity|right; right; exact I].
  - intros [<-|I]; [left; reflexivity|right; exact I].
  - intros [<-|I]; [right; left; reflexivity|]. destruct (IH I) as [->|J]; [left; reflexivity|right; right; exact J].
Qed.
Lemma add_names e f cwd t l b q t' : WF f -> Forall (names_place f) t -> names_ok l -> (exists k, at_place f l = Some k /\ forall g, k <> KLink g) ->
  convert_to_unix_slashes e b = Some q -> is_abs q = true -> walk f true MAXLINKS (cut [] q) [] = inl l ->
  add_translation e f cwd t (text l) b = Some t' -> Forall (names_place f) t'.
Proof.
  intros W T H (k & A & NL) C Ab Wq E. unfold add_translation in E. rewrite convert_text in E by exact H. rewrite C in E. destruct (file_is_directory f cwd (text l)) eqn:D; [|injection E as <-; exact T].
  pose proof (text_dir f cwd l k W H A NL D) as ->. destruct (file_is_full_path q && _)%bool; [|injection E as <-; exact T].
  rewrite end_slash_text in E by exact H. assert (Nq : q <> []) by (destruct q; discriminate). destruct (end_slash_form q Nq) as (B & EB & FB). rewrite EB in E.
  destruct (str_eqb_spec (body l ++ [slash]) (B ++ [slash])) as [_|N]; [injection E as <-; exact T|]. destruct (shas (body l ++ [slash]) t); injection E as <-; [exact T|].
  assert (WB : walk f true MAXLINKS (cut [] B) [] = inl l). { destruct FB as [->| ->]; [exact Wq|]. eapply thin_walk; [|exact Wq]. change [slash] with (slash :: []). rewrite cut_slash. rewrite <- (app_nil_r (cut [] B)) at 2. apply thin_app, thin_skip, thin_refl. }
  assert (NB : B <> []). { intros ->. cbn [cut] in WB. rewrite walk_cons in WB. change (at_place f []) with (Some KDir) in WB. change (stays []) with true in WB. cbv iota in WB. rewrite walk_nil in WB. injection WB as <-. apply N. reflexivity. }
  assert (AB : is_abs B = true). { destruct FB as [->| ->]; [exact Ab|]. destruct B; [congruence|exact Ab]. }
  apply Forall_forall. intros x I. apply In_sset in I as [->|I]; [|exact (proj1 (Forall_forall _ _) T x I)]. exists l, B. repeat split; assumption || apply H; assumption.
Qed.
Lemma real_place f cwd refused p a : sys_realpath f cwd refused p = Some a -> exists l k, a = text l /\ resolve f cwd true p = inl l /\ at_place f l = Some k.
Proof.
  unfold sys_realpath. destruct (refused p); [discriminate|]. destruct (resolve f cwd true p) as [l|]; [|discriminate]. destruct (at_place f l) as [k|] eqn:A; [|discriminate]. intros E. injection E as <-. exists l, k. auto.
Qed.
Lemma shorten_works e f cwd refused a b : forall n c p ch, is_abs p = true -> ~ In backslash p -> shorten e f cwd refused n c p ch = Some (Some (a, b)) ->
  ch = Some (a, b) \/ (sys_realpath f cwd refused b = Some a /\ is_abs b = true /\ ~ In backslash b).
Proof.
  induction n as [|n IH]; intros c p ch Ha Hb E; cbn [shorten] in E; [discriminate|]. destruct (str_eqb c (realpath f cwd refused p) && negb (str_eqb c p))%bool eqn:Q; [|injection E as ->; left; reflexivity].
  apply andb_prop in Q as [Q1 Q2]. apply str_eqb_eq in Q1. apply negb_true_iff, str_eqb_neq in Q2. unfold realpath in Q1. destruct (sys_realpath f cwd refused p) as [r|] eqn:R; [|congruence]. subst r.
  destruct (gfp_abs e p Ha Hb) as (p' & Ep & Ap & Ip). rewrite Ep in E. destruct (get_filename_path e c) as [c'|]; [|discriminate]. destruct (IH _ _ _ Ap (fun I => Hb (Ip _ I)) E) as [K|K]; [|right; exact K]. injection K as <- <-. right. auto.
Qed.
Lemma init_names e f cwd refused n pwd gc t : WF f -> no_backslash f -> (forall g, at_place f cwd <> Some (KLink g)) -> match pwd with Some p => is_abs p = true /\ ~ In backslash p | None => True end ->
  class_initialize e f cwd refused n pwd gc = Some t -> Forall (names_place f) t.
Proof.
  intros W B NC HP E. unfold class_initialize in E. destruct (add_keep e f cwd refused n [] (L "/tmp/")) as [t0|] eqn:K; [|discriminate].
  assert (T0 : Forall (names_place f) t0).
  { unfold add_keep in K. destruct n as [|n]; [discriminate|]. change (collapse_full_path (S n) (with_table e []) (L "/tmp/") None) with (Some (L "/tmp")) in K. unfold realpath in K. destruct (sys_realpath f cwd refused (L "/tmp")) as [a|] eqn:R.
    - destruct (real_place _ _ _ _ _ R) as (l & k & -> & Rl & A). refine (add_names e f cwd [] l (L "/tmp/") (L "/tmp") t0 W (Forall_nil _) _ _ eq_refl eq_refl Rl K); [eapply place_names; eauto; congruence|].
      exists k. split; [exact A|]. intros g ->. exact (resolve_nolink f cwd _ l W NC Rl g A).
    - unfold add_translation in K. change (convert_to_unix_slashes e (L "/tmp")) with (Some (L "/tmp")) in K. change (convert_to_unix_slashes e (L "/tmp/")) with (Some (L "/tmp")) in K. cbv iota in K. rewrite str_eqb_refl in K.
      destruct (file_is_directory f cwd (L "/tmp")); [|injection K as <-; constructor]. destruct (file_is_full_path (L "/tmp") && _)%bool; injection K as <-; constructor. }
  destruct pwd as [p|]; [|injection E as <-; exact T0]. destruct gc as [c|]; [|injection E as <-; exact T0]. destruct HP as [Ha Hb]. destruct (shorten e f cwd refused n c p None) as [[[a b]|]|] eqn:SH; [|injection E as <-; exact T0|discriminate].
  destruct (shorten_works _ _ _ _ _ _ _ _ _ _ Ha Hb SH) as [Q|(R & Ab & Bb)]; [discriminate|]. destruct a as [|a0 a]; [injection E as <-; exact T0|]. destruct b as [|b0 b]; [discriminate|].
  destruct (real_place _ _ _ _ _ R) as (l & k & El & Rl & A). rewrite El in E. destruct (convert_abs e (b0 :: b) Ab Bb) as (q & Cq & Aq & _ & Tq).
  refine (add_names e f cwd t0 l (b0 :: b) q t W T0 _ _ Cq Aq _ E); [eapply place_names; eauto; congruence|exists k; split; [exact A|]; intros g ->; exact (resolve_nolink f cwd _ l W NC Rl g A)|].
  eapply thin_walk; [apply Tq|]. unfold resolve in Rl. rewrite Ab in Rl. exact Rl.
Qed.
Lemma resolve_abs f cwd fo p : is_abs p = true -> resolve f cwd fo p = walk f fo MAXLINKS (cut [] p) [].
Proof. intros H. unfold resolve. rewrite H. destruct p; [discriminate|reflexivity]. Qed.
Lemma cut_ne s : forall cur, exists y r, cut cur s = y :: r.
Proof. induction s as [|c s IH]; intros cur; cbn [cut]; [eauto|]. destruct (Ascii.eqb c slash); eauto. Qed.
Lemma renamed_same f cwd l b p q : WF f -> is_abs b = true -> names_ok l -> at_place f l = Some KDir -> walk f true MAXLINKS (cut [] b) [] = inl l -> renamed (body l) b p q -> p <> [] ->
  q <> [] /\ (resolve f cwd true q = resolve f cwd true p \/ resolve f cwd true q = inr ELOOP).
Proof.
  intros W Ab H D Wb R Np. destruct R as [|r|p N1 N2].
  - split; [destruct b; discriminate|]. left. rewrite (resolve_abs f cwd true b Ab), Wb. symmetry. rewrite <- text_body by (intros ->; apply Np; reflexivity). apply resolve_text; assumption.
  - split; [destruct b; discriminate|]. change "/"%char with slash.
    assert (A1 : is_abs (body l ++ slash :: r) = true) by (destruct l; reflexivity). assert (A2 : is_abs (b ++ slash :: r) = true) by (destruct b; [discriminate|exact Ab]).
    rewrite (resolve_abs f cwd true _ A1), (resolve_abs f cwd true _ A2), !cut_slash, (cut_body l H). cbn [app]. rewrite (walk_cons f true MAXLINKS []). change (at_place f []) with (Some KDir). change (stays []) with true. cbv iota. rewrite (walk_down f true MAXLINKS l W D).
    destruct (cut_ne r []) as (y & s & E). rewrite E. pose proof (walk_app f true y s MAXLINKS (cut [] b) []) as K. rewrite Wb in K. destruct K as (n' & Le & ->). apply walk_less, Le.
  - split; [exact Np|]. left. reflexivity.
Qed.
Lemma table_form f t : Forall (names_place f) t -> exists table, t = map (fun ab => (fst ab ++ ["/"%char], snd ab ++ ["/"%char])) table /\
  Forall (fun ab => exists l, fst ab = body l /\ is_abs (snd ab) = true /\ names_ok l /\ at_place f l = Some KDir /\ walk f true MAXLINKS (cut [] (snd ab)) [] = inl l) table.
Proof.
  induction 1 as [|kv t (l & b & -> & A) _ (table & -> & F)]; [exists []; split; [reflexivity|constructor]|]. exists ((body l, b) :: table). split; [reflexivity|]. constructor; [exists l; cbn [fst snd]; tauto|exact F].
Qed.
Lemma translate_same e f cwd t p : WF f -> Forall (names_place f) t -> p <> [] ->
  resolve f cwd true (check_translation (with_table e t) p) = resolve f cwd true p \/ resolve f cwd true (check_translation (with_table e t) p) = inr ELOOP.
Proof.
  intros W T Np. destruct (table_form f t T) as (table & E & F). destruct (C85_translation (with_table e t) table p E) as [C1 C2]. destruct (Nat.lt_ge_cases (length p) 2) as [H|H]; [rewrite C1 by exact H; left; reflexivity|].
  destruct (C2 H (check_translation (with_table e t) p)) as [R _]. specialize (R eq_refl). set (q := check_translation (with_table e t) p) in *. clearbody q. clear C1 C2 E T H. revert p Np R. induction F as [|[a b] table (l & Ea & Ab & Hl & D & Wb) _ IH]; intros p Np R; inversion R as [p0|a0 b0 t0 p0 q1 r0 X Y]; subst; [left; reflexivity|].
  cbn [fst snd] in *. subst a. destruct (renamed_same f cwd l b p q1 W Ab Hl D Wb X Np) as [N1 [S1|S1]].
  - rewrite <- S1. apply IH; assumption.
  - right. destruct (IH q1 N1 Y) as [S2|S2]; [|exact S2]. rewrite S2. exact S1.
Qed.
Lemma collapse_table n e t p base q : collapse_full_path n (with_table e []) p base = Some q -> collapse_full_path n (with_table e t) p base = Some (check_translation (with_table e t) q).
Proof.
  unfold collapse_full_path. assert (SP : forall m s, split_path m (with_table e t) s = split_path m (with_table e []) s).
  { induction m as [|m IH]; intros s; cbn [split_path]; [reflexivity|]. destruct (split_root s) as [root rest]. destruct root as [|c root]; [reflexivity|]. destruct (Ascii.eqb c "~"); [|reflexivity]. change (e_home (with_table e t)) with (e_home (with_table e [])). change (e_pw (with_table e t)) with (e_pw (with_table e [])). rewrite IH. reflexivity. }
  rewrite SP. destruct (split_path n (with_table e []) p) as [pc|]; [|discriminate]. change (e_cwd (with_table e t)) with (e_cwd (with_table e [])).
  match goal with |- match ?x with Some _ => _ | None => _ end = Some q -> match ?y with Some _ => _ | None => _ end = _ => replace y with x by (destruct (nth 0 pc []); [destruct base; [rewrite SP; reflexivity|destruct (e_cwd (with_table e [])); [rewrite SP; reflexivity|reflexivity]]|reflexivity]); destruct x as [o|]; [|discriminate] end.
  intros E. injection E as <-. rewrite (check_no_translation (with_table e [])) by reflexivity. reflexivity.
Qed.

(** Whatever the file system, the environment and the working directory: a path collapsed
    with the table that the program starts with names the same thing as without it (unless
    links on the kept name are too many for the system).  The names in the file system and
    $PWD have no backslash, and $PWD starts with a slash. *)
Theorem C120_same_place e f cwd refused n pwd getcwd t : WF f -> no_backslash f -> at_place f cwd = Some KDir ->
  match pwd with Some p => (exists r, p = "/"%char :: r) /\ ~ In "\"%char p | None => True end ->
  class_initialize e f cwd refused n pwd getcwd = Some t ->
  forall m p base q, collapse_full_path m (with_table e []) p base = Some q -> q <> [] ->
  exists q', collapse_full_path m (with_table e t) p base = Some q' /\ (resolve f cwd true q' = resolve f cwd true q \/ resolve f cwd true q' = inr ELOOP).
Proof.
  intros W B D HP E m p base q C Nq. rewrite (collapse_table m e t p base q C). eexists. split; [reflexivity|]. apply translate_same; [exact W| |exact Nq].
  eapply init_names; [exact W|exact B|intros g; rewrite D; discriminate| |exact E]. destruct pwd as [x|]; [|exact I]. destruct HP as [(r & ->) HP]. split; [reflexivity|exact HP].
Qed.
Print Assumptions C120_same_place.
