(** TreeProofs2.v -- what RemoveADirectory removes. *)
From Coq Require Import Ascii String List Bool Arith Lia.
Import ListNotations.
From Verif Require Import Base PathModel TreeModel TreeSpec TreeProofs.

Section Remove.
Variable deny : call -> place -> bool.
Variable cwd : place.
Notation rad := (remove_a_directory deny cwd).
(** The loop over the entries. *)
Section Loop.
Variable rec : fsys -> str -> option (fsys * bool).
Variable source : str.
Fixpoint entries (f : fsys) (files : list str) : option (fsys * bool) :=
  match files with
  | [] => Some (sys_rmdir deny cwd f source)
  | x :: rest =>
      if (str_eqb x (L ".") || str_eqb x (L ".."))%bool then entries f rest
      else
        let full := source ++ [slash] ++ x in
        if (file_is_directory f cwd full && negb (file_is_symlink f cwd full))%bool then
          match rec f full with
          | None => None
          | Some (f', true) => entries f' rest
          | Some (f', false) => Some (f', false)
          end
        else match remove_file deny cwd f full with
             | (f', true) => entries f' rest
             | (f', false) => Some (f', false)
             end
  end.
End Loop.
Lemma rad_S n f source : rad (S n) f source = entries (rad n) source f (load deny cwd f source).
Proof. reflexivity. Qed.

(** Only things at or below l are gone. *)
Definition Only (l : place) (f f' : fsys) : Prop := forall x, at_place f' x = at_place f x \/ (below l x /\ at_place f' x = None).
Lemma Only_refl l f : Only l f f. Proof. intros x. left. reflexivity. Qed.
Lemma Only_sub l f f' : Only l f f' -> Sub f' f. Proof. intros O x. destruct (O x) as [E|[_ E]]; auto. Qed.
Lemma Only_trans l f f1 f2 m : Only l f f1 -> Only (l ++ m) f1 f2 -> Only l f f2.
Proof. intros A B x. destruct (B x) as [E|[E E']]; [rewrite E; apply A|]. right. split; [exact (below_app _ _ _ E)|exact E']. Qed.
Lemma Only_drop f l : l <> [] -> Only l f (drop f l).
Proof. intros N x. rewrite at_drop by exact N. destruct (place_dec x l) as [->|]; [right; split; [apply below_refl|reflexivity]|left; reflexivity]. Qed.
Lemma rmdir_cases f source f' b : sys_rmdir deny cwd f source = (f', b) ->
  (b = false /\ f' = f) \/ (b = true /\ exists l, resolve f cwd true source = inl l /\ l <> [] /\ at_place f l = Some KDir /\ names_in f l = [] /\ f' = drop f l).
Proof.
  unfold sys_rmdir. destruct (str_eqb _ _ || str_eqb _ _)%bool; [intros E; injection E as <- <-; auto|]. destruct (resolve f cwd false (no_trailing source)) as [l|e] eqn:R; [|intros E; injection E as <- <-; auto].
  destruct (at_place f l) as [[|d|t]|] eqn:A; try (intros E; injection E as <- <-; auto). destruct l as [|a l]; [intros E; injection E as <- <-; auto|]. destruct (names_in f (a :: l)) eqn:N; [|intros E; injection E as <- <-; auto]. destruct (deny CRmdir (a :: l)); intros E; injection E as <- <-; [auto|].
  right. split; [reflexivity|]. exists (a :: l). split; [apply resolve_trailing; assumption|]. split; [discriminate|]. auto.
Qed.
Lemma unlink_cases f p f' b : remove_file deny cwd f p = (f', b) ->
  f' = f \/ exists m k, resolve f cwd false p = inl m /\ m <> [] /\ at_place f m = Some k /\ k <> KDir /\ f' = drop f m /\ b = true.
Proof.
  unfold remove_file, sys_unlink. destruct (resolve f cwd false p) as [m|e]; [|destruct e; intros E; injection E as <- <-; auto]. destruct (at_place f m) as [k|] eqn:A; [|intros E; injection E as <- <-; auto].
  destruct k; [intros E; injection E as <- <-; auto|..]; (destruct (deny CUnlink m); intros E; injection E as <- <-; [auto|]; right; eexists m, _; repeat split; [intros ->; discriminate A|exact A|discriminate]).
Qed.
(** Where the name of an entry leads, as entries disappear. *)
Lemma entry_place f0 f source l x : resolve f0 cwd true source = inl l -> Sub f f0 -> proper x ->
  (resolve f cwd true source = inl l /\ at_place f l = Some KDir /\ resolve f cwd false (source ++ [slash] ++ x) = inl (l ++ [x])) \/ forall fo, exists e, resolve f cwd fo (source ++ [slash] ++ x) = inr e.
Proof.
  intros R HS P. assert (source <> []) as Ne by (intros ->; discriminate R). pose proof (resolve_entry f cwd source x P Ne) as K. destruct (resolve f cwd true source) as [l1|e] eqn:R1; [|right; intros fo; exists e; apply K].
  destruct K as [K1 K2]. destruct (at_place f l1) as [[|d|t]|] eqn:A; try (right; apply K2; discriminate). left. assert (resolve f0 cwd true source = inl l1) as R2 by (apply (resolve_sub f f0 _ _ _ _ HS R1); congruence). rewrite R in R2. injection R2 as <-. auto.
Qed.
Definition Safe (n : nat) : Prop := forall f source f' b, WF f -> rad n f source = Some (f', b) ->
  WF f' /\ match resolve f cwd true source with
           | inl l => Only l f f' /\ (b = true -> at_place f l = Some KDir /\ forall t, at_place f' (l ++ t) = None)
           | inr _ => f' = f /\ b = false
           end.
Lemma gone_below f l : WF f -> names_in f l = [] -> l <> [] -> WF (drop f l) /\ forall t, at_place (drop f l) (l ++ t) = None.
Proof.
  intros Wf N Nl. pose proof (empty_dir f l Wf N) as E. split; [apply drop_WF; assumption|]. intros t. rewrite at_drop by exact Nl. destruct (place_dec (l ++ t) l); [reflexivity|]. apply E. intros ->. rewrite app_nil_r in n. congruence.
Qed.
Lemma entries_safe n source l f0 : Safe n -> resolve f0 cwd true source = inl l -> at_place f0 l = Some KDir -> forall files f f' b,
  (forall x, In x files -> x = L "." \/ x = L ".." \/ proper x) -> WF f -> Only l f0 f -> entries (rad n) source f files = Some (f', b) ->
  WF f' /\ Only l f0 f' /\ (b = true -> forall t, at_place f' (l ++ t) = None).
Proof.
  intros IH R D. induction files as [|x rest IHf]; intros f f' b Hx Wf O E; cbn [entries] in E.
  - injection E as E. apply rmdir_cases in E as [[-> ->]|(-> & l1 & R1 & Nl & A & N & ->)]; [split; [exact Wf|]; split; [exact O|discriminate]|].
    assert (l1 = l) as -> by (assert (resolve f0 cwd true source = inl l1) as R2 by (apply (resolve_sub f f0 _ _ _ _ (Only_sub _ _ _ O) R1); congruence); congruence).
    destruct (gone_below f l Wf N Nl) as [W1 G]. split; [exact W1|]. split; [|intros _; exact G]. apply (Only_trans _ _ _ _ [] O). rewrite app_nil_r. apply Only_drop, Nl.
  - destruct (str_eqb x (L ".") || str_eqb x (L ".."))%bool eqn:Dots; [apply (IHf f f' b); try assumption; intros y I; apply Hx; right; exact I|].
    assert (proper x) as P. { destruct (Hx x (or_introl eq_refl)) as [->|[->|P]]; [rewrite str_eqb_refl in Dots; discriminate|rewrite str_eqb_refl, orb_true_r in Dots; discriminate|exact P]. }
    assert (forall y, In y rest -> y = L "." \/ y = L ".." \/ proper y) as Hr by (intros y I; apply Hx; right; exact I). cbn zeta in E. set (full := source ++ [slash] ++ x) in *.
    pose proof (entry_place f0 f source l x R (Only_sub _ _ _ O) P) as EP. fold full in EP. destruct (file_is_directory f cwd full && negb (file_is_symlink f cwd full))%bool eqn:Fd.
    + apply andb_true_iff in Fd as [_ Sy]. apply negb_true_iff in Sy. destruct (rad n f full) as [[f1 b1]|] eqn:Rec; [|discriminate]. destruct (IH f full f1 b1 Wf Rec) as [W1 K].
      assert (Only l f0 f1) as O1. { destruct EP as [(_ & _ & EP)|EP]; [|destruct (EP true) as [e EP']; rewrite EP' in K; destruct K as [-> _]; exact O]. assert (forall t, at_place f (l ++ [x]) <> Some (KLink t)) as Nl by (intros t A; unfold file_is_symlink, stat_at in Sy; rewrite EP, A in Sy; discriminate). rewrite (resolve_follow _ _ _ _ EP Nl) in K. destruct K as [K _]. exact (Only_trans _ _ _ _ _ O K). }
      destruct b1; [exact (IHf f1 f' b Hr W1 O1 E)|]. injection E as <- <-. split; [exact W1|]. split; [exact O1|discriminate].
    + destruct (remove_file deny cwd f full) as [f1 b1] eqn:Rm. assert (WF f1 /\ Only l f0 f1) as [W1 O1].
      { apply unlink_cases in Rm as [->|(m & k & Rm & Nm & A & Nk & -> & ->)]; [auto|]. destruct EP as [(_ & _ & EP)|EP]; [|destruct (EP false) as [e EP']; congruence]. assert (m = l ++ [x]) as -> by congruence. split; [apply drop_WF; [exact Wf|exact Nm|apply (not_dir_leaf f _ k); assumption]|]. apply (Only_trans _ _ _ _ [x] O). apply Only_drop, Nm. }
      destruct b1; [exact (IHf f1 f' b Hr W1 O1 E)|]. injection E as <- <-. split; [exact W1|]. split; [exact O1|discriminate].
Qed.
Lemma load_files f source x : WF f -> In x (load deny cwd f source) -> x = L "." \/ x = L ".." \/ (proper x /\ exists l, resolve f cwd true source = inl l /\ at_place f l = Some KDir /\ In x (names_in f l)).
Proof.
  intros Wf. unfold load. destruct (resolve f cwd true source) as [l|]; [|intros []]. destruct (at_place f l) as [[|d|t]|] eqn:A; try intros []. destruct (deny COpendir l); [intros []|]. cbn [app]. intros [<-|[<-|I]]; [auto|auto|]. right. right. split; [exact (names_proper _ _ _ Wf I)|]. exists l. auto.
Qed.
Lemma safe n : Safe n.
Proof.
  induction n as [|n IH]; intros f source f' b Wf E; [discriminate E|]. rewrite rad_S in E.
  assert (load deny cwd f source = [] \/ exists l, resolve f cwd true source = inl l /\ at_place f l = Some KDir) as [L0|(l & R & D)].
  { unfold load. destruct (resolve f cwd true source) as [l|]; [|auto]. destruct (at_place f l) as [[|d|t]|] eqn:A; auto. right. exists l. auto. }
  - rewrite L0 in E. cbn [entries] in E. injection E as E. apply rmdir_cases in E as [[-> ->]|(-> & l & R & Nl & A & N & ->)].
    + split; [exact Wf|]. destruct (resolve f cwd true source); [split; [apply Only_refl|discriminate]|auto].
    + destruct (gone_below f l Wf N Nl) as [W1 G]. split; [exact W1|]. rewrite R. split; [apply Only_drop, Nl|]. intros _. split; [exact A|exact G].
  - destruct (entries_safe n source l f IH R D (load deny cwd f source) f f' b) as (W1 & O & T); [intros x I; apply load_files in I; tauto|exact Wf|apply Only_refl|exact E|]. split; [exact W1|]. rewrite R. split; [exact O|]. intros B. split; [exact D|exact (T B)].
Qed.

(** ---- the recursion ends ---- *)
Definition Dep (d : nat) (f : fsys) : Prop := forall x k, at_place f x = Some k -> length x <= d.
Lemma Dep_sub d f f' : Sub f' f -> Dep d f -> Dep d f'.
Proof. intros HS H x k A. apply (H x k). exact (Sub_some _ _ _ _ HS A). Qed.
Lemma total d : forall n f source, WF f -> Dep d f -> 1 <= n -> (forall l, resolve f cwd true source = inl l -> at_place f l = Some KDir -> d + 2 <= n + length l) -> rad n f source <> None.
Proof.
  induction n as [|n IH]; intros f source Wf Df N1 Hn; [lia|]. rewrite rad_S.
  assert (forall files f1, (forall x, In x files -> In x (load deny cwd f source)) -> WF f1 -> Sub f1 f -> (forall l, resolve f cwd true source = inl l -> Only l f f1) -> entries (rad n) source f1 files <> None) as G; [|apply G; [auto|exact Wf|apply Sub_refl|intros; apply Only_refl]].
  induction files as [|x rest IHf]; intros f1 Hx Wf1 S1 O1; cbn [entries]; [discriminate|].
  assert (forall y, In y rest -> In y (load deny cwd f source)) as Hr by (intros y I; apply Hx; right; exact I). pose proof (load_files f source x Wf (Hx x (or_introl eq_refl))) as Fx.
  destruct (str_eqb x (L ".") || str_eqb x (L ".."))%bool eqn:Dots; [apply IHf; assumption|]. destruct Fx as [->|[->|(P & l & R & D & I)]]; [rewrite str_eqb_refl in Dots; discriminate|rewrite str_eqb_refl, orb_true_r in Dots; discriminate|].
  specialize (Hn l R D). specialize (O1 l R). apply (names_in_look f l x Wf) in I. assert (length l + 1 <= d) as Ld. { destruct (at_place f (l ++ [x])) as [k|] eqn:A; [|congruence]. apply Df in A. rewrite app_length in A. exact A. }
  cbn zeta. set (full := source ++ [slash] ++ x). pose proof (entry_place f f1 source l x R S1 P) as EP. fold full in EP.
  assert (forall f2 b2, rad n f1 full = Some (f2, b2) -> file_is_symlink f1 cwd full = false -> WF f2 /\ Only l f f2) as After.
  { intros f2 b2 E Sy. destruct (safe n f1 full f2 b2 Wf1 E) as [W2 K]. split; [exact W2|]. destruct EP as [(_ & _ & EP)|EP]; [|destruct (EP true) as [e EP']; rewrite EP' in K; destruct K as [-> _]; exact O1]. assert (forall t, at_place f1 (l ++ [x]) <> Some (KLink t)) as Nl by (intros t A; unfold file_is_symlink, stat_at in Sy; rewrite EP, A in Sy; discriminate). rewrite (resolve_follow _ _ _ _ EP Nl) in K. destruct K as [K _]. exact (Only_trans _ _ _ _ _ O1 K). }
  destruct (file_is_directory f1 cwd full && negb (file_is_symlink f1 cwd full))%bool eqn:Fd.
  - apply andb_true_iff in Fd as [_ Sy]. apply negb_true_iff in Sy. assert (rad n f1 full <> None) as Rn.
    { apply IH; [exact Wf1|exact (Dep_sub _ _ _ S1 Df)|lia|]. intros m Rm Dm. destruct EP as [(_ & _ & EP)|EP]; [|destruct (EP true) as [e EP']; congruence]. assert (forall t, at_place f1 (l ++ [x]) <> Some (KLink t)) as Nl by (intros t A; unfold file_is_symlink, stat_at in Sy; rewrite EP, A in Sy; discriminate). rewrite (resolve_follow _ _ _ _ EP Nl) in Rm. injection Rm as <-. rewrite app_length. cbn [length]. lia. }
    destruct (rad n f1 full) as [[f2 b2]|] eqn:Rec; [|congruence]. destruct (After f2 b2 eq_refl Sy) as [W2 O2]. destruct b2; [|discriminate]. apply IHf; [exact Hr|exact W2|exact (Only_sub _ _ _ O2)|intros l' R'; assert (l' = l) as -> by congruence; exact O2].
  - destruct (remove_file deny cwd f1 full) as [f2 b2] eqn:Rm. destruct b2; [|discriminate]. assert (WF f2 /\ Only l f f2) as [W2 O2].
    { apply unlink_cases in Rm as [->|(m & k & Rm & Nm & A & Nk & -> & _)]; [auto|]. destruct EP as [(_ & _ & EP)|EP]; [|destruct (EP false) as [e EP']; congruence]. assert (m = l ++ [x]) as -> by congruence. split; [apply drop_WF; [exact Wf1|exact Nm|apply (not_dir_leaf f1 _ k); assumption]|]. apply (Only_trans _ _ _ _ [x] O1). apply Only_drop, Nm. }
    apply IHf; [exact Hr|exact W2|exact (Only_sub _ _ _ O2)|intros l' R'; assert (l' = l) as -> by congruence; exact O2].
Qed.
End Remove.
