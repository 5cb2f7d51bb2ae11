(** TransProofs.v -- facts about TransModel. *)
From Coq Require Import Ascii String List Bool Arith Lia.
Import ListNotations.
From Verif Require Import Base PathModel PathProofs PathProps2 PathProps4 TreeModel TreeSpec TreeProofs TransModel.

(** ---- walks ---- *)
(** With fewer links allowed a walk does the same or gives up. *)
Lemma walk_less f fo : forall n n' todo cur, n' <= n -> walk f fo n' todo cur = walk f fo n todo cur \/ walk f fo n' todo cur = inr ELOOP.
Proof.
  induction n as [n IHn] using lt_wf_ind. intros n' todo. induction todo as [|x rest IH]; intros cur Le; [rewrite !walk_nil; left; reflexivity|]. rewrite !walk_cons.
  destruct (at_place f cur) as [[|d|t]|]; try (left; reflexivity). destruct (stays x); [apply IH; exact Le|]. destruct (str_eqb x (L "..")); [apply IH; exact Le|].
  destruct (at_place f (cur ++ [x])) as [[|d|t]|]; try (apply IH; exact Le). destruct (match rest with [] => negb fo | _ => false end); [left; reflexivity|].
  destruct n' as [|n']; [right; reflexivity|]. destruct n as [|n]; [lia|]. destruct t; [left; reflexivity|]. apply IHn; lia.
Qed.
(** Some empty names left out. *)
Inductive thin : list str -> list str -> Prop :=
| thin_refl l : thin l l
| thin_skip l l' : thin l l' -> thin ([] :: l) l'
| thin_cons x l l' : thin l l' -> thin (x :: l) (x :: l').
Lemma thin_app a : forall b b', thin b b' -> thin (a ++ b) (a ++ b').
Proof. induction a as [|x a IH]; intros b b' H; cbn [app]; [exact H|]. apply thin_cons, IH, H. Qed.
Lemma thin_walk f : forall n todo todo' cur l, thin todo todo' -> walk f true n todo cur = inl l -> walk f true n todo' cur = inl l.
Proof.
  induction n as [n IHn] using lt_wf_ind. intros todo todo' cur l H. revert cur. induction H as [k|k k' H IH|x k k' H IH]; intros cur E.
  - exact E.
  - rewrite walk_cons in E. destruct (at_place f cur) as [[|d|t]|]; try discriminate. apply IH. exact E.
  - rewrite walk_cons in E |- *. destruct (at_place f cur) as [[|d|t]|]; try discriminate. destruct (stays x); [apply IH; exact E|]. destruct (str_eqb x (L "..")); [apply IH; exact E|].
    destruct (at_place f (cur ++ [x])) as [[|d|t]|]; try (apply IH; exact E).
    assert ((match k with [] => negb true | _ => false end) = false) as Q by (destruct k; reflexivity). rewrite Q in E. assert ((match k' with [] => negb true | _ => false end) = false) as -> by (destruct k'; reflexivity).
    destruct n as [|n]; [discriminate|]. destruct t as [|c t]; [discriminate|]. eapply IHn; [lia| |exact E]. apply thin_app, H.
Qed.
Lemma thin_trans a b c : thin a b -> thin b c -> thin a c.
Proof.
  intros H. revert c. induction H as [l|l l' H IH|x l l' H IH]; intros c H'; [exact H'|apply thin_skip, IH, H'|].
  inversion H' as [l0|l0 l1 H0|y l0 l1 H0]; subst; [apply thin_cons, H|apply thin_skip, IH; assumption|apply thin_cons, IH; assumption].
Qed.
Lemma cut_slash s t : forall cur, cut cur (s ++ slash :: t) = cut cur s ++ cut [] t.
Proof. induction s as [|c s IH]; intros cur; cbn [app cut]; [reflexivity|]. destruct (Ascii.eqb c slash); [cbn [app]; rewrite IH; reflexivity|apply IH]. Qed.
Lemma thin_replaced s r : replaced [slash; slash] [slash] s r -> forall cur, thin (cut cur s) (cut cur r).
Proof.
  induction 1 as [s N|a b r M R IH]; intros cur; [apply thin_refl|]. cbn [app]. change (a ++ slash :: slash :: b) with (a ++ slash :: ([] ++ slash :: b)). rewrite !cut_slash. apply thin_app. cbn [cut app]. apply thin_skip, IH.
Qed.

(** ---- conversion keeps what a name of a directory means ---- *)
Lemma replaced_abs s r : replaced [slash; slash] [slash] s r -> is_abs s = true -> is_abs r = true.
Proof. intros H. destruct H as [s N|a b r M R]; [auto|]. destruct a; [reflexivity|exact (fun H => H)]. Qed.
Lemma replaced_in s r c : replaced [slash; slash] [slash] s r -> In c r -> In c s.
Proof.
  induction 1 as [s N|a b r M R IH]; [auto|]. intros I. apply in_app_or in I. apply in_or_app. destruct I as [I|I]; [left; exact I|right]. cbn [app] in I |- *. destruct I as [<-|I]; [left; reflexivity|]. right. right. apply IH, I.
Qed.
Lemma unslashed_thin q r : unslashed q r -> forall cur, thin (cut cur q) (cut cur r).
Proof. intros H cur. destruct H; try apply thin_refl. change ["/"%char] with (slash :: []). rewrite cut_slash. rewrite <- (app_nil_r (cut cur r)) at 2. apply thin_app. apply thin_skip. apply thin_refl. Qed.
Lemma unslashed_abs q r : unslashed q r -> is_abs q = true -> is_abs r = true.
Proof. intros H. destruct H; auto. destruct r; [congruence|exact (fun H => H)]. Qed.
Lemma unslashed_in q r c : unslashed q r -> In c r -> In c q.
Proof. intros H. destruct H; auto. intros I. apply in_or_app. left. exact I. Qed.
Lemma expand_abs e p : is_abs p = true -> expand_tilde e p = p.
Proof. destruct p as [|c p]; [discriminate|]. cbn [is_abs expand_tilde]. intros H. apply Ascii.eqb_eq in H as ->. reflexivity. Qed.
Lemma convert_abs e p : is_abs p = true -> ~ In backslash p ->
  exists q, convert_to_unix_slashes e p = Some q /\ is_abs q = true /\ (forall c, In c q -> In c p) /\ forall cur, thin (cut cur p) (cut cur q).
Proof.
  intros Ha Hb. destruct (C84_exact e p) as (q & Q & ->). rewrite conv_id in Q by exact Hb.
  assert (K : is_abs q = true /\ (forall c, In c q -> In c p) /\ forall cur, thin (cut cur p) (cut cur q)).
  { destruct (has_double_slash p); [|subst q; repeat split; auto; intros; apply thin_refl]. split; [eapply replaced_abs; eassumption|]. split; [intros c; apply replaced_in, Q|apply thin_replaced, Q]. }
  destruct K as (K1 & K2 & K3). destruct q as [|c q]; [discriminate|]. rewrite expand_abs by exact K1. pose proof (unslashed_strip (c :: q)) as U. eexists. split; [reflexivity|]. split; [eapply unslashed_abs; eassumption|].
  split; [intros x I; apply K2; eapply unslashed_in; eassumption|]. intros cur. eapply thin_trans; [apply K3|apply unslashed_thin, U].
Qed.
Lemma gfp_abs e p : is_abs p = true -> ~ In backslash p -> exists q, get_filename_path e p = Some q /\ is_abs q = true /\ (forall c, In c q -> In c p).
Proof.
  intros Ha Hb. unfold get_filename_path. destruct (convert_abs e p Ha Hb) as (q & -> & A & I & _).
  destruct (rsplit slash q) as [[a b]|] eqn:R.
  - apply rsplit_some in R as [-> N]. assert (SL : In slash p) by (apply I, in_or_app; right; left; reflexivity).
    assert (IA : forall c, In c a -> In c p) by (intros c J; apply I, in_or_app; left; exact J).
    assert (AA : a <> [] -> is_abs a = true) by (intros Ne; destruct a; [congruence|exact A]).
    destruct ((length a =? 2) && Ascii.eqb (nth 1 a " "%char) ":")%bool.
    + eexists. split; [reflexivity|]. destruct a as [|x a]; [split; [reflexivity|intros c [<-|[]]; exact SL]|]. split; [exact (AA ltac:(discriminate))|]. intros c J. apply in_app_or in J as [J|[<-|[]]]; [apply IA, J|exact SL].
    + destruct a as [|x a]; eexists; (split; [reflexivity|]); [split; [reflexivity|intros c [<-|[]]; exact SL]|]. split; [apply AA; discriminate|exact IA].
  - apply rsplit_none in R. elim R. destruct q as [|c q]; [discriminate|]. cbn in A. apply Ascii.eqb_eq in A as ->. left. reflexivity.
Qed.
Lemma end_slash_form p : p <> [] -> exists q, end_slash p = q ++ [slash] /\ (p = q \/ p = q ++ [slash]).
Proof.
  intros Ne. unfold end_slash. destruct p as [|c p _] using rev_ind; [congruence|]. rewrite rev_app_distr. cbn [rev app]. destruct (Ascii.eqb_spec c slash) as [->|N]; eauto.
Qed.

(** ---- places and their names ---- *)
Definition body (l : place) : str := flat_map (fun n => slash :: n) l.
Definition names_ok (l : place) : Prop := forall n, In n l -> proper n /\ ~ In backslash n.
Definition no_backslash (f : fsys) : Prop := forall x k n, In (x, k) f -> In n x -> ~ In backslash n.
Lemma place_names f l : WF f -> no_backslash f -> at_place f l <> None -> names_ok l.
Proof.
  intros W B. induction l as [|x l IH] using rev_ind; intros A n I; [destruct I|]. assert (at_place f l = Some KDir) as D by (eapply look_parent; eassumption).
  apply in_app_or in I as [I|[<-|[]]]; [apply IH; [congruence|exact I]|]. rewrite at_snoc in A. destruct (look f (l ++ [x])) as [k|] eqn:E; [|congruence]. apply look_in in E. split; [|eapply B; [exact E|apply in_or_app; right; left; reflexivity]].
  destruct (wf_name f W _ _ E) as (_ & P & _). rewrite last_last in P. exact P.
Qed.
Lemma cut_body l : names_ok l -> forall cur, cut cur (body l) = cur :: l.
Proof.
  induction l as [|n l IH]; intros H cur; [reflexivity|]. cbn [body flat_map]. change (flat_map (fun n : str => slash :: n) l) with (body l). cbn [app cut]. change (Ascii.eqb slash slash) with true. cbv iota. f_equal.
  assert (Hn : ~ In slash n) by apply (H n (or_introl eq_refl)). destruct l as [|m l].
  - cbn [body flat_map]. rewrite app_nil_r. apply cut_noslash, Hn.
  - assert (IH' := IH (fun x I => H x (or_intror I)) []). cbn [body flat_map app] in IH'. change (flat_map (fun n : str => slash :: n) l) with (body l) in *. cbn [body flat_map app]. change (flat_map (fun n : str => slash :: n) l) with (body l). rewrite cut_slash. rewrite cut_noslash by exact Hn. cbn [app]. f_equal. cbn [cut] in IH'. change (Ascii.eqb slash slash) with true in IH'. cbv iota in IH'. injection IH'. auto.
Qed.
Lemma text_body l : l <> [] -> text l = body l. Proof. destruct l; [congruence|reflexivity]. Qed.
Lemma walk_down f fo n l : WF f -> at_place f l = Some KDir -> forall todo, walk f fo n (l ++ todo) [] = walk f fo n todo l.
Proof.
  intros W. induction l as [|x l IH] using rev_ind; intros D todo; [reflexivity|]. assert (at_place f l = Some KDir) as Dl by (eapply look_parent; [exact W|rewrite D; discriminate]).
  rewrite <- app_assoc. cbn [app]. rewrite (IH Dl). rewrite walk_cons, Dl. assert (P : proper x). { rewrite at_snoc in D. apply look_in in D. destruct (wf_name f W _ _ D) as (_ & P & _). rewrite last_last in P. exact P. }
  destruct (proper_stays x P) as [-> ->]. rewrite D. reflexivity.
Qed.
Lemma body_last l : names_ok l -> forall r, body l <> r ++ [slash].
Proof.
  intros H r E. destruct l as [|x l _] using rev_ind; [destruct r; discriminate|]. unfold body in E. rewrite flat_map_app in E. cbn [flat_map] in E. rewrite app_nil_r in E. destruct (H x) as ((Ne & _ & _ & NS) & _); [apply in_or_app; right; left; reflexivity|].
  destruct x as [|c x _] using rev_ind; [congruence|]. rewrite app_comm_cons, app_assoc in E. apply app_inj_tail in E as [_ ->]. apply NS. apply in_or_app. right. left. reflexivity.
Qed.
Lemma body_nobs l : names_ok l -> ~ In backslash (body l).
Proof. intros H I. unfold body in I. apply in_flat_map in I as (n & I & [J|J]); [discriminate|]. exact (proj2 (H n I) J). Qed.
Lemma body_single l : names_ok l -> two_slashes (body l) = false.
Proof.
  induction l as [|n l IH]; intros H; [reflexivity|]. cbn [body flat_map]. change (flat_map (fun n : str => slash :: n) l) with (body l). destruct (H n (or_introl eq_refl)) as ((Ne & _ & _ & NS) & _).
  assert (T : two_slashes n = false). { destruct (two_slashes n) eqn:T; [|reflexivity]. apply two_slashes_sub in T as (a & b & ->). elim NS. apply in_or_app. right. left. reflexivity. }
  assert (E : two_slashes ((slash :: n) ++ body l) = (two_slashes [slash] || (two_slashes n || two_slashes (body l) || (ends_slash n && starts_slash (body l))) || (ends_slash [slash] && starts_slash (n ++ body l)))%bool).
  { change ((slash :: n) ++ body l) with ([slash] ++ (n ++ body l)). rewrite (two_slashes_app [slash] (n ++ body l)). rewrite (two_slashes_app n (body l)). reflexivity. }
  match goal with |- ?t = false => replace t with (two_slashes ((slash :: n) ++ body l)) by reflexivity end. rewrite E. clear E. rewrite T, IH by (intros x I; apply H; right; exact I). cbn [two_slashes andb orb ends_slash rev app].
  assert (ends_slash n = false) as ->. { unfold ends_slash. destruct (rev n) as [|c r] eqn:R; [reflexivity|]. destruct (Ascii.eqb_spec c slash) as [->|]; [|reflexivity]. elim NS. apply in_rev. rewrite R. left. reflexivity. }
  destruct n as [|c n]; [congruence|]. cbn [app starts_slash]. destruct (Ascii.eqb_spec c slash) as [->|]; [elim NS; left; reflexivity|]. reflexivity.
Qed.
Lemma convert_text e l : names_ok l -> convert_to_unix_slashes e (text l) = Some (text l).
Proof.
  intros H. destruct l as [|n l]; [reflexivity|]. rewrite text_body by discriminate. destruct (C84_trailing e (body (n :: l))) as (q & -> & U); [apply body_nobs, H|apply body_single, H|discriminate|discriminate|].
  f_equal. remember (body (n :: l)) as b eqn:E. destruct U as [r Nr Nx|x| |]; [|..]; try reflexivity. elim (body_last (n :: l) H r). rewrite <- E. reflexivity.
Qed.
Lemma end_slash_text l : names_ok l -> end_slash (text l) = body l ++ [slash].
Proof.
  intros H. destruct l as [|n l]; [reflexivity|]. rewrite text_body by discriminate. destruct (end_slash_form (body (n :: l)) ltac:(discriminate)) as (q & -> & [->|E]); [reflexivity|]. elim (body_last _ H _ E).
Qed.
Lemma resolve_text f cwd fo l : WF f -> names_ok l -> at_place f l = Some KDir -> resolve f cwd fo (text l) = inl l.
Proof.
  intros W H D. destruct l as [|n l]; [reflexivity|]. unfold resolve. rewrite text_body by discriminate. change (walk f fo MAXLINKS (cut [] (body (n :: l))) [] = inl (n :: l)). rewrite cut_body by exact H. rewrite walk_cons. change (at_place f []) with (Some KDir). change (stays []) with true. cbv iota.
  pose proof (walk_down f fo MAXLINKS (n :: l) W D []) as K. rewrite app_nil_r in K. rewrite K. apply walk_nil.
Qed.
Lemma chop_text l : names_ok l -> chop (text l) = text l.
Proof.
  intros H. destruct l as [|n l]; [reflexivity|]. rewrite text_body by discriminate. unfold chop. destruct (rev (body (n :: l))) as [|c [|d r]] eqn:R; try reflexivity. assert (E : body (n :: l) = rev (d :: r) ++ [c]) by (rewrite <- (rev_involutive (body (n :: l))), R; reflexivity).
  destruct (Ascii.eqb_spec c slash) as [->|_]; [elim (body_last _ H _ E)|]. destruct (Ascii.eqb_spec c backslash) as [->|_]; [elim (body_nobs _ H); rewrite E; apply in_or_app; right; left; reflexivity|]. reflexivity.
Qed.
(** A walk that follows links does not end at one. *)
Lemma walk_nolink f l : WF f -> forall n todo cur, (forall t, at_place f cur <> Some (KLink t)) -> walk f true n todo cur = inl l -> forall t, at_place f l <> Some (KLink t).
Proof.
  intros W. induction n as [n IHn] using lt_wf_ind. induction todo as [|x rest IH]; intros cur N E; [rewrite walk_nil in E; injection E as <-; exact N|]. rewrite walk_cons in E.
  destruct (at_place f cur) as [[|d|t]|] eqn:C; try discriminate. assert (NC : forall t, at_place f cur <> Some (KLink t)) by (intros; congruence). destruct (stays x); [eapply IH; [exact NC|exact E]|].
  destruct (str_eqb x (L "..")).
  - eapply IH; [|exact E]. intros t. destruct cur as [|y cur _] using rev_ind; [discriminate|]. rewrite removelast_last. rewrite (look_parent f cur y W) by congruence. discriminate.
  - destruct (at_place f (cur ++ [x])) as [[|d|t]|] eqn:Q; try (eapply IH; [|exact E]; intros; congruence).
    assert ((match rest with [] => negb true | _ => false end) = false) as R by (destruct rest; reflexivity). rewrite R in E. destruct n as [|n]; [discriminate|]. destruct t as [|c t]; [discriminate|]. refine (IHn n (Nat.lt_succ_diag_r n) _ _ _ E). destruct (is_abs (c :: t)); [discriminate|exact NC].
Qed.
Lemma resolve_nolink f cwd p l : WF f -> (forall t, at_place f cwd <> Some (KLink t)) -> resolve f cwd true p = inl l -> forall t, at_place f l <> Some (KLink t).
Proof. intros W N. unfold resolve. destruct p as [|c p]; [discriminate|]. apply walk_nolink; [exact W|]. destruct (is_abs (c :: p)); [discriminate|exact N]. Qed.
Lemma text_dir f cwd l k : WF f -> names_ok l -> at_place f l = Some k -> (forall t, k <> KLink t) -> file_is_directory f cwd (text l) = true -> k = KDir.
Proof.
  intros W H A NL D. unfold file_is_directory in D. destruct (text l) as [|c s] eqn:T; [discriminate|]. rewrite <- T, chop_text in D by exact H. clear T. unfold stat_at in D.
  destruct l as [|x l _] using rev_ind; [cbn in A; congruence|]. assert (at_place f l = Some KDir) as Dl by (eapply look_parent; [exact W|rewrite A; discriminate]).
  assert (H' : names_ok (l ++ [x])) by exact H. unfold resolve in D. rewrite text_body in D by (destruct l; discriminate).
  assert (is_abs (body (l ++ [x])) = true) as IA by (destruct l; reflexivity). rewrite IA in D. destruct (body (l ++ [x])) as [|c' s'] eqn:B; [discriminate|]. rewrite <- B, cut_body in D by exact H'. rewrite walk_cons in D. change (at_place f []) with (Some KDir) in D. change (stays []) with true in D. cbv iota in D.
  destruct k as [|d|t]; [reflexivity| |].
  - rewrite (walk_down f true MAXLINKS l W Dl [x]) in D. rewrite walk_cons, Dl in D. destruct (proper_stays x) as [E1 E2]; [apply H'; apply in_or_app; right; left; reflexivity|]. rewrite E1, E2, A, walk_nil, A in D. discriminate.
  - elim (NL t). reflexivity.
Qed.
