(** CopyTree.v -- CopyADirectory, between directories without links. *)
From Coq Require Import Ascii String List Bool Arith Lia.
Import ListNotations.
From Verif Require Import Base PathModel PathProofs TreeModel TreeSpec TreeProofs TransModel TransProofs CopyModel CopySpec CopyProofs CopyProofs2.

(** ---- names of places ---- *)
Lemma body_snoc l (x : str) : body (l ++ [x]) = body l ++ slash :: x.
Proof. unfold body. rewrite flat_map_app. cbn [flat_map]. rewrite app_nil_r. reflexivity. Qed.
Lemma text_snoc l (x : str) : l <> [] -> text l ++ [slash] ++ x = text (l ++ [x]).
Proof. intros N. rewrite (text_body l N), (text_body (l ++ [x]) (snoc_ne l x)), body_snoc. reflexivity. Qed.
Lemma text_ne l : text l <> []. Proof. destruct l; discriminate. Qed.
Lemma text_abs l : is_abs (text l) = true. Proof. destruct l; reflexivity. Qed.
Lemma text_nobs l : names_ok l -> ~ In backslash (text l).
Proof. intros H. destruct l; [intros [E|[]]; discriminate|]. rewrite text_body by discriminate. apply body_nobs, H. Qed.
Lemma names_ok_app a b : names_ok (a ++ b) <-> names_ok a /\ names_ok b.
Proof. unfold names_ok. split; [intros H; split; intros n I; apply H, in_or_app; auto|intros [H K] n I; apply in_app_or in I as [I|I]; auto]. Qed.
Lemma resolve_body f cwd fo l : names_ok l -> l <> [] -> resolve f cwd fo (text l) = walk f fo MAXLINKS l [].
Proof.
  intros H N. rewrite (resolve_walk f cwd fo (text l) (text_ne l)), text_abs, (text_body l N), cut_body by exact H. rewrite walk_cons. reflexivity.
Qed.
Lemma walk_way f fo n : forall t cur l, names_ok t -> (forall p u, t = p ++ u -> u <> [] -> at_place f (cur ++ p) = None \/ at_place f (cur ++ p) = Some KDir) -> (forall u, at_place f (cur ++ t) <> Some (KLink u)) -> walk f fo n t cur = inl l -> l = cur ++ t.
Proof.
  induction t as [|x t IH]; intros cur l H O NL E; [rewrite walk_nil in E; injection E as <-; rewrite app_nil_r; reflexivity|]. rewrite walk_cons in E. destruct (at_place f cur) as [[|d|u]|]; try discriminate. destruct (H x (or_introl eq_refl)) as [P _]. destruct (proper_stays x P) as [E1 E2]. rewrite E1, E2 in E.
  assert (NLx : forall u, at_place f (cur ++ [x]) <> Some (KLink u)). { intros u Q. destruct t as [|y t]; [exact (NL u Q)|]. destruct (O [x] (y :: t) eq_refl ltac:(discriminate)); congruence. }
  assert (W : walk f fo n t (cur ++ [x]) = inl l). { destruct (at_place f (cur ++ [x])) as [[|d|u]|]; try exact E. elim (NLx u). reflexivity. }
  rewrite (IH (cur ++ [x]) l); [rewrite <- app_assoc; reflexivity|intros y I; apply H; right; exact I| | |exact W].
  - intros p u -> Nu. rewrite <- app_assoc. cbn [app]. apply (O (x :: p) u eq_refl Nu).
  - intros u. rewrite <- app_assoc. exact (NL u).
Qed.
Lemma resolve_way f cwd fo l m : names_ok l -> l <> [] -> open_way f l -> resolve f cwd fo (text l) = inl m -> m = l.
Proof.
  intros H N O. rewrite resolve_body by assumption. intros E. apply (walk_way f fo MAXLINKS l [] m H) in E; [exact E| |].
  - intros p u -> _. apply (O p u eq_refl).
  - intros u Q. cbn [app] in Q. destruct (O l [] ltac:(rewrite app_nil_r; reflexivity)); congruence.
Qed.
(** A name in a directory. *)
Lemma resolve_in f cwd fo l (x : str) : WF f -> names_ok (l ++ [x]) -> at_place f l = Some KDir -> (forall t, at_place f (l ++ [x]) <> Some (KLink t)) -> resolve f cwd fo (text (l ++ [x])) = inl (l ++ [x]).
Proof.
  intros W H D NL. rewrite resolve_body by (assumption || apply snoc_ne). rewrite walk_down by assumption. apply names_ok_app in H as [_ H]. destruct (H x (or_introl eq_refl)) as [P _]. destruct (proper_stays x P) as [E1 E2]. rewrite walk_cons, D, E1, E2. destruct (at_place f (l ++ [x])) as [[|d|t]|] eqn:A; try apply walk_nil. elim (NL t). reflexivity.
Qed.
Lemma prefix_case (a b c d : place) : a ++ b = c ++ d -> (exists t, a = c ++ t /\ d = t ++ b) \/ (exists t, c = a ++ t /\ b = t ++ d).
Proof.
  revert c. induction a as [|x a IH]; intros [|y c] E; cbn [app] in E.
  - left. exists []. auto.
  - right. exists (y :: c). auto.
  - left. exists (x :: a). auto.
  - injection E as <- E. destruct (IH c E) as [(t & -> & ->)|(t & -> & ->)]; [left|right]; exists t; auto.
Qed.
Lemma apart (a b : place) r r' : ~ below a b -> ~ below b a -> a ++ r <> b ++ r'.
Proof. intros N M E. destruct (prefix_case a r b r' E) as [(t & -> & _)|(t & -> & _)]; [apply M|apply N]; exists t; reflexivity. Qed.

(** ---- MakeDirectory ---- *)
(** Only directories on the way to l are new. *)
Definition paved (f f' : fsys) (l : place) : Prop := forall x, at_place f' x = at_place f x \/ (at_place f x = None /\ at_place f' x = Some KDir /\ below x l).
Lemma paved_refl f l : paved f f l. Proof. left. reflexivity. Qed.
Lemma paved_trans f g h l : paved f g l -> paved g h l -> paved f h l.
Proof. intros H K x. destruct (H x) as [E|(E1 & E2 & E3)], (K x) as [E'|(E1' & E2' & E3')]; [left; congruence|right; repeat split; congruence|right; repeat split; congruence|right; repeat split; congruence]. Qed.
Lemma paved_way f f' l m : paved f f' l -> open_way f m -> open_way f' m.
Proof. intros P O p t E. destruct (P p) as [->|(_ & -> & _)]; [apply (O p t E)|right; reflexivity]. Qed.
Lemma no_trailing_text l : names_ok l -> l <> [] -> no_trailing (text l) = text l.
Proof.
  intros H N. rewrite (text_body l N). unfold no_trailing. destruct (rev (body l)) as [|c r] eqn:R; [rewrite <- (rev_involutive (body l)), R; reflexivity|]. cbn [strip_slashes]. destruct (Ascii.eqb_spec c slash) as [->|]; [|rewrite <- R; apply rev_involutive].
  elim (body_last l H (rev r)). rewrite <- (rev_involutive (body l)), R. reflexivity.
Qed.
Lemma sys_mkdir_text k cwd f l : WF f -> names_ok l -> l <> [] -> open_way f l ->
  let r := sys_mkdir k cwd f (text l) in
  WF (fst r) /\ paved f (fst r) l /\ (snd r <> MkOther -> at_place (fst r) l = Some KDir) /\ (deny k CMkdir l = false -> at_place f (removelast l) = Some KDir -> snd r <> MkOther).
Proof.
  intros W H N O. cbv zeta. unfold sys_mkdir. rewrite no_trailing_text by assumption. destruct (text l) as [|c s] eqn:T; [destruct (text_ne l T)|]. rewrite <- T. clear T.
  destruct (resolve f cwd false (text l)) as [m|er] eqn:R.
  - pose proof (resolve_way f cwd false l m H N O R) as ->. destruct (at_place f l) as [kd|] eqn:A.
    + cbn [fst snd]. split; [exact W|]. split; [apply paved_refl|]. split; [|discriminate]. intros _. destruct (O l [] ltac:(rewrite app_nil_r; reflexivity)); congruence.
    + destruct (deny k CMkdir l); cbn [fst snd]; [split; [exact W|]; split; [apply paved_refl|]; split; [congruence|discriminate]|].
      assert (En : entry f l). { assert (N2 : at_place f l <> Some KDir) by congruence. rewrite resolve_body in R by assumption. refine (walk_entry f false l W N2 MAXLINKS l [] _ eq_refl R). apply Forall_forall. intros x I. apply (H x I). }
      split; [apply entry_put; [exact W|exact En|congruence]|]. split; [|split; [|discriminate]].
      * intros x. rewrite at_put by exact N. destruct (place_dec x l) as [->|]; [|left; reflexivity]. right. split; [exact A|]. split; [reflexivity|apply below_refl].
      * intros _. rewrite at_put by exact N. destruct (place_dec l l); congruence.
  - cbn [fst snd]. split; [exact W|]. split; [apply paved_refl|]. split; [congruence|]. intros _ D. exfalso. destruct l as [|x l _] using rev_ind; [congruence|]. rewrite removelast_last in D. rewrite resolve_in in R; [discriminate|exact W|exact H|exact D|]. intros t Q. destruct (O (l ++ [x]) [] ltac:(rewrite app_nil_r; reflexivity)); congruence.
Qed.
Lemma tops_noslash x : ~ In slash x -> forall pre r, tops pre (x ++ r) = tops (pre ++ x) r.
Proof.
  induction x as [|c x IH]; intros N pre r; cbn [app tops]; [rewrite app_nil_r; reflexivity|]. destruct (Ascii.eqb_spec c slash) as [->|]; [elim N; left; reflexivity|]. rewrite IH by (intros I; apply N; right; exact I). rewrite <- app_assoc. reflexivity.
Qed.
Lemma tops_cons x t cur : ~ In slash x -> tops (body cur) (body (x :: t)) = body cur :: tops (body (cur ++ [x])) (body t).
Proof.
  intros Nx. cbn [body flat_map app tops]. change (Ascii.eqb slash slash) with true. cbv iota. change (flat_map (fun n => slash :: n) t) with (body t). rewrite tops_noslash by exact Nx. rewrite body_snoc, <- app_assoc. reflexivity.
Qed.
Lemma way_prefix f a b : open_way f (a ++ b) -> open_way f a.
Proof. intros O p t ->. apply (O p (t ++ b)). rewrite app_assoc. reflexivity. Qed.
Lemma paved_longer f f' a b : paved f f' a -> paved f f' (a ++ b).
Proof. intros P x. destruct (P x) as [E|(E1 & E2 & (t & ->))]; [left; exact E|right]. repeat split; try assumption. exists (t ++ b). rewrite app_assoc. reflexivity. Qed.
Lemma mkdirs_text k cwd : forall t cur f, WF f -> names_ok (cur ++ t) -> cur ++ t <> [] -> open_way f (cur ++ t) ->
  let f1 := fold_left (fun f t => fst (sys_mkdir k cwd f t)) (tops (body cur) (body t)) f in
  let r := sys_mkdir k cwd f1 (body (cur ++ t)) in
  WF (fst r) /\ paved f (fst r) (cur ++ t) /\ (snd r <> MkOther -> at_place (fst r) (cur ++ t) = Some KDir) /\
  ((forall l, deny k CMkdir l = false) -> (cur = [] \/ at_place f (removelast cur) = Some KDir) -> snd r <> MkOther).
Proof.
  induction t as [|x t IH]; intros cur f W H N O; cbv zeta.
  - cbn [body flat_map tops fold_left]. rewrite app_nil_r in *. change (flat_map (fun n => slash :: n) cur) with (body cur). rewrite <- (text_body cur N). destruct (sys_mkdir_text k cwd f cur W H N O) as (A & B & C & D). split; [exact A|]. split; [exact B|]. split; [exact C|]. intros Al [E|E]; [congruence|]. apply D; [apply Al|exact E].
  - assert (Nx : ~ In slash x) by (apply names_ok_app in H as [_ H]; apply (H x (or_introl eq_refl))). rewrite tops_cons by exact Nx. cbn [fold_left].
    assert (EQ : cur ++ x :: t = (cur ++ [x]) ++ t) by (rewrite <- app_assoc; reflexivity). rewrite EQ in *.
    assert (STEP : let f0 := fst (sys_mkdir k cwd f (body cur)) in WF f0 /\ paved f f0 cur /\ ((forall l, deny k CMkdir l = false) -> (cur = [] \/ at_place f (removelast cur) = Some KDir) -> at_place f0 cur = Some KDir)).
    { cbv zeta. destruct cur as [|c cur'] eqn:Ec; [cbn; split; [exact W|]; split; [apply paved_refl|reflexivity]|]. rewrite <- Ec in *. assert (Nc : cur <> []) by congruence. rewrite <- (text_body cur Nc).
      assert (Hc : names_ok cur) by (rewrite <- app_assoc in H; apply names_ok_app in H; apply H). assert (Oc : open_way f cur) by (rewrite <- app_assoc in O; eapply way_prefix; exact O).
      destruct (sys_mkdir_text k cwd f cur W Hc Nc Oc) as (A & B & C & D). split; [exact A|]. split; [exact B|]. intros Al [E|E]; [congruence|]. apply C, D; [apply Al|exact E]. }
    cbv zeta in STEP. set (f0 := fst (sys_mkdir k cwd f (body cur))) in *. destruct STEP as (W0 & P0 & K0).
    assert (P0' : paved f f0 ((cur ++ [x]) ++ t)) by (rewrite <- app_assoc; apply paved_longer, P0).
    destruct (IH (cur ++ [x]) f0 W0 H N (paved_way _ _ _ _ P0 O)) as (A & B & C & D). split; [exact A|]. split; [eapply paved_trans; [exact P0'|exact B]|]. split; [exact C|]. intros Al E. apply D; [exact Al|]. right. rewrite removelast_last. apply K0; assumption.
Qed.
Lemma make_directory_text e k cwd f l : WF f -> names_ok l -> l <> [] -> open_way f l ->
  exists f' b, make_directory e k cwd f (text l) = Some (f', b) /\ WF f' /\ paved f f' l /\ (b = true -> at_place f' l = Some KDir) /\ ((forall m, deny k CMkdir m = false) -> b = true).
Proof.
  intros W H N O. unfold make_directory. destruct (file_exists k cwd f (text l)) eqn:FE.
  - exists f, (file_is_directory f cwd (text l)). split; [reflexivity|]. split; [exact W|]. split; [apply paved_refl|]. unfold file_exists in FE. destruct (resolve f cwd true (text l)) as [m|] eqn:R; [|discriminate]. pose proof (resolve_way f cwd true l m H N O R) as ->.
    assert (D : at_place f l = Some KDir) by (destruct (O l [] ltac:(rewrite app_nil_r; reflexivity)) as [Z|Z]; [rewrite Z in FE; discriminate|exact Z]). split; [intros _; exact D|]. intros _. apply dir_spec; [apply text_nobs, H|]. exists l. auto.
  - destruct (text l) as [|c s] eqn:T; [destruct (text_ne l T)|]. rewrite <- T in *. rewrite convert_text by exact H. pose proof (mkdirs_text k cwd l [] f W H N O) as K. cbv zeta in K. cbn [app body flat_map] in K. change (flat_map (fun n => slash :: n) l) with (body l) in K. rewrite <- (text_body l N) in K.
    destruct (sys_mkdir k cwd _ (text l)) as [f2 r]. cbn [fst snd] in K. destruct K as (A & B & C & D). exists f2, (match r with MkOther => false | _ => true end). split; [reflexivity|]. split; [exact A|]. split; [exact B|]. split; [intros E; apply C; destruct r; congruence|]. intros Al. specialize (D Al (or_introl eq_refl)). destruct r; congruence.
Qed.
