(** HashWhole.v -- C122: constructors, operator=, swap, the destructor; histories. *)
From Coq Require Import List NArith Bool Arith Lia Permutation.
Import ListNotations.
From Verif Require Import Base HashModel HashSpec HashProofs HashProofs2 HashProofs3 HashProofs4 HashProofs5 HashProofs6 HashWorld HashStep.

Section World.
Context {V K : Type}.
Variable key : V -> K.
Variable hash : K -> N.
Variable keq : K -> K -> bool.
Variable throws : nat -> bool.
Variable veq : V -> V -> bool.
Hypothesis keq_sym : forall a b, keq a b = true -> keq b a = true.
Hypothesis keq_trans : forall a b c, keq a b = true -> keq b c = true -> keq a c = true.
Hypothesis keq_hash : forall a b, keq a b = true -> hash a = hash b.
Notation el := (nat * V)%type.
Notation ids := (map (@fst nat V)).
Notation st := (@st V).
Notation world := (@world V).
Notation Inv := (Inv key hash keq).
Notation WInv := (WInv key hash keq).
Notation holds := (holds key hash).
Notation others := (others key hash).
Notation kept := (kept key hash).
Notation whole := (whole key hash).
Notation legal := (legal key hash).
Notation step := (step key hash keq throws veq).
Notation fits := (fits key hash keq).
Notation holds_iff := (holds_iff key hash keq).

(** A place for one more table. *)
Lemma place w Bs : WInv w Bs -> WInv (World (w_heap w) (w_clock w) (w_tabs w ++ [None])) (Bs ++ [[]]).
Proof.
  intros [Ok Nd Lv]. assert (E : allE (Bs ++ [[]]) = allE Bs) by (unfold allE; rewrite map_app, concat_app; cbn; apply app_nil_r). split; cbn [w_heap w_tabs].
  - apply Forall2_app; [exact Ok|]. constructor; [reflexivity|constructor].
  - rewrite E. exact Nd.
  - intros x Hx. rewrite E. apply Lv. exact Hx.
Qed.
Lemma unplace h c ts Bs : length ts = length Bs -> WInv (World h c (ts ++ [None])) (Bs ++ [[]]) -> WInv (World h c ts) Bs.
Proof.
  intros Ln [Ok Nd Lv]. assert (E : allE (Bs ++ [[]]) = allE Bs) by (unfold allE; rewrite map_app, concat_app; cbn; apply app_nil_r). rewrite E in *. split; cbn [w_heap w_tabs] in *; [|exact Nd|exact Lv].
  destruct (f2_mid _ _ _ _ _ _ _ Ln Ok) as (F & _). exact F.
Qed.
Lemma lupd_snoc {A} (l : list A) x y : lupd (l ++ [x]) (length l) y = l ++ [y].
Proof. induction l as [|z l IH]; [reflexivity|]. cbn. rewrite IH. reflexivity. Qed.
Lemma nth_app_lt {A} (l m : list A) j : j < length l -> nth_error (l ++ m) j = nth_error l j.
Proof. apply nth_error_app1. Qed.
Lemma kept_of w Bs w' Bs' : WInv w Bs -> WInv w' Bs' -> (forall j, j < length (w_tabs w) -> nth_error (w_tabs w') j = nth_error (w_tabs w) j /\ nth_error Bs' j = nth_error Bs j) -> kept w w'.
Proof.
  intros W W' H j l n c Hj. rewrite (holds_iff _ _ _ _ _ _ W), (holds_iff _ _ _ _ _ _ W'). destruct (H j Hj) as [E1 E2]. split; intros (b & B & H1 & H2 & H3); exists b, B; rewrite ?E1, ?E2 in *; repeat split; try assumption; try apply H3.
Qed.
Lemma make_ok w Bs (f : st -> @out V unit) (Q : st -> list (list el) -> Prop) : WInv w Bs ->
  post (f (St (w_heap w) (w_clock w) [] 0)) (fun s' _ => exists B', fits (St (w_heap w) (w_clock w) [] 0) [] s' B' /\ Q s' B') (fun s' => exists B', fits (St (w_heap w) (w_clock w) [] 0) [] s' B' /\ concat B' = []) ->
  match make w f with
  | WRet w' r => exists s' B', Q s' B' /\ WInv w' (Bs ++ [B']) /\ length (w_tabs w') = S (length (w_tabs w)) /\ kept w w' /\ holds w' (length (w_tabs w)) (concat B') (num s') (length B') /\ Step (St (w_heap w) (w_clock w) [] 0) [] s' B'
  | WThrow w' => WInv w' Bs /\ length (w_tabs w') = length (w_tabs w) /\ kept w w'
  | WBad => False
  end.
Proof.
  intros W P. unfold make. pose proof (tabs_len key hash keq w Bs W) as TL. pose proof (place w Bs W) as W1. destruct (f (St (w_heap w) (w_clock w) [] 0)) as [s' u|s'|]; cbn [post] in P; [| |exact P].
  - destruct P as (B' & (I & T & Le) & HQ). exists s', B'. split; [exact HQ|].
    assert (W' : WInv (World (heap s') (clock s') (w_tabs w ++ [Some (bks s', num s')])) (Bs ++ [B'])).
    { rewrite <- (lupd_snoc (w_tabs w) None), <- (lupd_snoc Bs []), <- TL. apply (frame key hash keq (World (w_heap w) (w_clock w) (w_tabs w ++ [None])) (Bs ++ [[]]) _ None [] (St (w_heap w) (w_clock w) [] 0) s' B' _ B' (clock s') W1); cbn [w_tabs w_heap heap].
      - apply nth_snoc_eq.
      - rewrite TL. apply nth_snoc_eq.
      - reflexivity.
      - exact T.
      - split; [|exact Le]. apply (inv_sim key hash keq s'); [exact I|repeat split].
      - reflexivity.
      - exact (i_nodup _ _ _ _ _ I). }
    split; [exact W'|]. cbn [w_tabs]. split; [rewrite app_length; cbn; lia|]. split; [|split; [|exact T]].
    + apply (kept_of w Bs _ (Bs ++ [B']) W W'). intros j Hj. cbn [w_tabs]. split; apply nth_app_lt; [exact Hj|rewrite <- TL; exact Hj].
    + apply (holds_iff _ _ _ _ _ _ W'). exists (bks s'), B'. cbn [w_tabs]. split; [apply nth_snoc_eq|]. split; [rewrite TL; apply nth_snoc_eq|]. split; reflexivity.
  - destruct P as (B' & (I & T & Le) & E0).
    assert (W' : WInv (World (heap s') (clock s') (w_tabs w)) Bs).
    { apply unplace; [exact TL|]. rewrite <- (lupd_snoc (w_tabs w) None), <- (lupd_snoc Bs []), <- TL. apply (frame key hash keq (World (w_heap w) (w_clock w) (w_tabs w ++ [None])) (Bs ++ [[]]) _ None [] (St (w_heap w) (w_clock w) [] 0) s' B' None [] (clock s') W1); cbn [w_tabs w_heap heap].
      - apply nth_snoc_eq.
      - rewrite TL. apply nth_snoc_eq.
      - reflexivity.
      - exact T.
      - reflexivity.
      - rewrite E0. reflexivity.
      - rewrite E0. constructor. }
    split; [exact W'|]. split; [reflexivity|]. apply (kept_of w Bs _ Bs W W'). intros j Hj. split; reflexivity.
Qed.
Lemma nil_inv (s : st) : bks s = [] -> Inv s [].
Proof. intro E. split; [rewrite E; constructor|constructor|intros i l x H; destruct i; discriminate|constructor]. Qed.
Lemma repeat_inv (s : st) n : bks s = repeat None n -> Inv s (repeat [] n).
Proof.
  intro E. assert (C : concat (repeat (@nil el) n) = []) by (clear; induction n; cbn; auto). split.
  - rewrite E. clear. induction n; cbn; constructor; [reflexivity|assumption].
  - rewrite C. constructor.
  - intros i l x H Hx. apply nth_error_In in H. apply repeat_spec in H. subst. destruct Hx.
  - apply Forall_forall. intros l H. apply repeat_spec in H. subst. exact Logic.I.
Qed.
Lemma concat_repeat {A} n : concat (repeat (@nil A) n) = [].
Proof. induction n; cbn; auto. Qed.
Lemma step_nil (s s' : st) B' : heap s' = heap s -> concat B' = [] -> Step s [] s' B'.
Proof. intros E C. split; rewrite ?E, ?C; auto. intros x [[]|H] Lv. exfalso. pose proof (live_lt _ _ Lv) as LL. try rewrite E in LL. lia. Qed.
Lemma concat_vals (B B0 : list (list el)) : map (map snd) B = map (map snd) B0 -> map snd (concat B) = map snd (concat B0).
Proof. intro E. rewrite !concat_map, E. reflexivity. Qed.
Lemma vals_len (B B0 : list (list el)) : map (map snd) B = map (map snd) B0 -> length B = length B0.
Proof. intro E. rewrite <- (map_length (map snd) B), E, map_length. reflexivity. Qed.
Lemma vals_count (B B0 : list (list el)) : map (map snd) B = map (map snd) B0 -> length (concat B) = length (concat B0).
Proof. intro E. apply concat_vals in E. rewrite <- (map_length snd), E, map_length. reflexivity. Qed.
Lemma perm_swap2 {A} (l : list A) i j x y : nth_error l i = Some x -> nth_error l j = Some y -> Permutation (lupd (lupd l i y) j x) l.
Proof.
  assert (Cut : forall (m : list A) k z, nth_error m k = Some z -> exists r, Permutation m (z :: r) /\ forall z', Permutation (lupd m k z') (z' :: r)).
  { intros m k z E. destruct (lupd_split m k z E) as (a & b & -> & La & U). exists (a ++ b). split; [apply Permutation_sym, Permutation_middle|]. intro z'. rewrite U. apply Permutation_sym, Permutation_middle. }
  intros Ei Ej. destruct (Cut l i x Ei) as (r & P1 & P2). assert (Ej' : nth_error (lupd l i y) j = Some y). { rewrite nth_lupd. destruct (Nat.eqb j i); rewrite Ej; reflexivity. }
  destruct (Cut _ j y Ej') as (r2 & Q1 & Q2). rewrite (Q2 x), P1. apply perm_skip. apply (Permutation_cons_inv (a := y)). rewrite <- Q1. apply P2.
Qed.
Lemma f2_lupd {A B} (R : A -> B -> Prop) a b i x y : Forall2 R a b -> R x y -> Forall2 R (lupd a i x) (lupd b i y).
Proof. intros F H. revert i. induction F as [|p q a b H1 F IH]; intros [|i]; cbn; constructor; auto. Qed.

Theorem step_whole w Bs o : WInv w Bs -> legal w o -> subject o = None ->
  match step w o with
  | WRet w' r => (exists Bs', WInv w' Bs') /\ whole w o w' true
  | WThrow w' => (exists Bs', WInv w' Bs') /\ whole w o w' false
  | WBad => False
  end.
Proof.
  intros W Lg Sj. destruct o; try discriminate Sj; clear Sj; cbn [HashSpec.legal] in Lg; cbn [HashModel.step].
  - (* the constructor *) set (m := N.to_nat (next_prime (N.of_nat n))). pose proof (make_ok w Bs (fun s => initialize_buckets throws s n) (fun s' B' => B' = repeat [] m /\ num s' = 0) W) as M. cbv beta in M.
    assert (P : post (initialize_buckets throws (St (w_heap w) (w_clock w) [] 0) n) (fun s' _ => exists B', fits (St (w_heap w) (w_clock w) [] 0) [] s' B' /\ B' = repeat [] m /\ num s' = 0) (fun s' => exists B', fits (St (w_heap w) (w_clock w) [] 0) [] s' B' /\ concat B' = [])).
    { unfold initialize_buckets. apply post_bind. apply post_call; cbn [post].
      - exists (repeat [] m). split; [|split; reflexivity]. split; [apply repeat_inv; reflexivity|]. split; [apply step_nil; [reflexivity|apply concat_repeat]|rewrite concat_repeat; cbn; lia].
      - exists []. split; [|reflexivity]. split; [apply nil_inv; reflexivity|]. split; [apply step_nil; reflexivity|cbn; lia]. }
    specialize (M P). destruct (make w (fun s => initialize_buckets throws s n)) as [w' r|w'|]; [| |exact M].
    + destruct M as (s' & B' & (-> & N') & W' & Ln & Kp & H & _). rewrite concat_repeat, repeat_length, N' in H. split; [exists (Bs ++ [repeat [] m]); exact W'|]. cbn. split; [exact Ln|]. split; [exact Kp|exact H].
    + destruct M as (W' & Ln & Kp). split; [exists Bs; exact W'|]. cbn. split; assumption.
  - (* the copy constructor *) destruct Lg as (l & n & c & H). destruct (there_inv key hash keq w Bs j l n c W H) as (b & B0 & Et & EB & -> & -> & I0 & Le). rewrite (proj2 (tab_nth w j (b, n)) Et).
    pose proof (make_ok w Bs (fun s => copy_from throws s b n) (fun s' B' => map (map snd) B' = map (map snd) B0 /\ num s' = n) W) as M. cbv beta in M.
    assert (P : post (copy_from throws (St (w_heap w) (w_clock w) [] 0) b n) (fun s' _ => exists B', fits (St (w_heap w) (w_clock w) [] 0) [] s' B' /\ map (map snd) B' = map (map snd) B0 /\ num s' = n) (fun s' => exists B', fits (St (w_heap w) (w_clock w) [] 0) [] s' B' /\ concat B' = [])).
    { eapply post_mono; [| |apply (copy_from_post key hash keq throws keq_sym keq_trans (St (w_heap w) (w_clock w) [] 0) B0 b n (w_clock w) I0 [] (nil_inv (St (w_heap w) (w_clock w) [] 0) eq_refl) eq_refl)].
      - intros s' u (B' & I' & T & Ev & N'). exists B'. split; [|split; assumption]. split; [exact I'|]. split; [exact T|]. rewrite N', (vals_count _ _ Ev). exact Le.
      - intros s' (B' & I' & T & E0 & Ht). exists B'. split; [|exact E0]. split; [exact I'|]. split; [exact T|]. rewrite E0. cbn. lia. }
    specialize (M P). destruct (make w (fun s => copy_from throws s b n)) as [w' r|w'|]; [| |exact M].
    + destruct M as (s' & B' & (Ev & N') & W' & Ln & Kp & H' & T). split; [exists (Bs ++ [B']); exact W'|]. cbn. split; [exact Ln|]. split; [exact Kp|]. exists (concat B0), n, (length B0), (concat B'). split; [exact H|]. rewrite N', (vals_len _ _ Ev) in H'. split; [exact H'|]. split; [exact (concat_vals _ _ Ev)|].
      intros x v Hx (m & Ex). destruct (t_mine _ _ _ _ T x Hx) as [[]|Hl]. cbn [heap] in Hl. assert (E : nth_error (w_heap w) x = None) by (apply nth_error_None; exact Hl). rewrite E in Ex. discriminate.
    + destruct M as (W' & Ln & Kp). split; [exists Bs; exact W'|]. cbn. split; assumption.
  - (* operator= *) destruct Lg as ((l & n & c & H) & (l2 & n2 & c2 & H2)). destruct (there_inv key hash keq w Bs i l n c W H) as (b & B & Et & EB & -> & -> & I & Le). destruct (there_inv key hash keq w Bs j l2 n2 c2 W H2) as (b2 & B2 & Et2 & EB2 & -> & -> & I2 & Le2).
    rewrite (proj2 (tab_nth w j (b2, n2)) Et2). destruct (Nat.eqb_spec i j) as [<-|Nij]; [split; [exists Bs; exact W|cbn; rewrite Nat.eqb_refl; reflexivity]|].
    set (f := fun s : st => bind (clear s) (fun s _ => copy_from throws s b2 n2)).
    pose proof (on_post key hash keq w Bs i b n B f (fun _ => RNone) (fun n' B' _ => map (map snd) B' = map (map snd) B2 /\ n' = n2) (fun n' B' => concat B' = [] /\ n' = 0 /\ (length B' = 0 \/ length B' = length B2)) W Et EB) as M.
    assert (P : post (f (St (w_heap w) (w_clock w) b n)) (fun s' _ => exists B', fits (St (w_heap w) (w_clock w) b n) B s' B' /\ map (map snd) B' = map (map snd) B2 /\ num s' = n2)
       (fun s' => exists B', fits (St (w_heap w) (w_clock w) b n) B s' B' /\ concat B' = [] /\ num s' = 0 /\ (length B' = 0 \/ length B' = length B2))).
    { unfold f. apply post_bind. eapply post_mono; [| |apply (clear_post key hash keq _ B I)]; [|intros s' []]. intros s1 u (I1 & T1 & N1).
      assert (Ap : forall x, In x (ids (concat B2)) -> ~ In x (ids (concat B)) /\ x < length (w_heap w)).
      { intros x Hx. split; [|apply live_lt; exact (inv_live key hash keq _ _ _ I2 Hx)]. intro C. pose proof W as [_ Nd _]. destruct (lupd_split _ _ _ EB) as (X & Y & EX & LX & _). rewrite EX, allE_mid, !map_app in Nd.
        rewrite EX in EB2. destruct (Nat.lt_ge_cases j (length X)) as [Lt|Ge].
        - rewrite nth_error_app1 in EB2 by exact Lt. apply (nodup_disj _ _ x Nd); [|rewrite in_app_iff; left; exact C]. apply in_map_iff in Hx. destruct Hx as (y & <- & Hy). apply in_map. unfold allE. apply in_concat. exists (concat B2). split; [apply in_map; exact (nth_error_In _ _ EB2)|exact Hy].
        - rewrite nth_error_app2 in EB2 by exact Ge. destruct (j - length X) as [|k] eqn:Ek; [lia|]. cbn [nth_error] in EB2. apply (nodup_disj _ _ x (nodup_r _ _ Nd) C). apply in_map_iff in Hx. destruct Hx as (y & <- & Hy). apply in_map. unfold allE. apply in_concat. exists (concat B2). split; [apply in_map; exact (nth_error_In _ _ EB2)|exact Hy]. }
      assert (I2' : Inv (St (heap s1) 0 b2 n2) B2). { apply (inv_frame key hash keq (w_heap w) (heap s1) (w_clock w) b2 n2); [exact I2|]. intros x Hx. destruct (Ap x Hx) as [A1 A2]. apply (t_old _ _ _ _ T1); [exact A2|exact A1]. }
      assert (TT : forall s' B', Step s1 [] s' B' -> Step (St (w_heap w) (w_clock w) b n) B s' B').
      { intros s' B' [a1 a2 a3 a4]. apply (step_trans _ _ _ _ _ _ T1). split; rewrite ?concat_nils; assumption. }
      eapply post_mono; [| |apply (copy_from_post key hash keq throws keq_sym keq_trans s1 B2 b2 n2 0 I2' _ I1 (concat_nils B))].
      - intros s' u' (B' & I' & T & Ev & N'). exists B'. split; [|split; assumption]. split; [exact I'|]. split; [exact (TT s' B' T)|]. rewrite N', (vals_count _ _ Ev). exact Le2.
      - intros s' (B' & I' & T & E0 & Ht). exists B'. split; [split; [exact I'|split; [exact (TT s' B' T)|rewrite E0; cbn; lia]]|]. split; [exact E0|]. destruct Ht as [[-> Hn]|[Hl Hn]]; [split; [congruence|left; reflexivity]|split; [exact Hn|right; exact Hl]]. }
    specialize (M P). fold f. destruct (on w i f (fun _ => RNone)) as [w' r|w'|]; [| |exact M].
    + destruct M as (n' & B' & a & (Ev & ->) & _ & W' & H' & O). split; [exists (lupd Bs i B'); exact W'|]. cbn. destruct (Nat.eqb_spec i j) as [C|_]; [contradiction|]. split; [exact O|]. exists (concat B2), n2, (length B2), (concat B'). split; [exact H2|]. rewrite (vals_len _ _ Ev) in H'. split; [exact H'|exact (concat_vals _ _ Ev)].
    + destruct M as (n' & B' & (E0 & -> & Hl) & W' & H' & O). split; [exists (lupd Bs i B'); exact W'|]. cbn. split; [exact Nij|]. split; [exact O|]. exists (concat B2), n2, (length B2), (length B'). split; [exact H2|]. rewrite E0 in H'. split; [exact H'|exact Hl].
  - (* swap *) destruct Lg as ((l & n & c & H) & (l2 & n2 & c2 & H2)). destruct (there_inv key hash keq w Bs i l n c W H) as (b & B & Et & EB & -> & -> & I & Le). destruct (there_inv key hash keq w Bs j l2 n2 c2 W H2) as (b2 & B2 & Et2 & EB2 & -> & -> & I2 & Le2).
    rewrite (proj2 (tab_nth w i (b, n)) Et), (proj2 (tab_nth w j (b2, n2)) Et2).
    assert (W' : WInv (World (w_heap w) (w_clock w) (lupd (lupd (w_tabs w) i (Some (b2, n2))) j (Some (b, n)))) (lupd (lupd Bs i B2) j B)).
    { pose proof W as [Ok Nd Lv]. pose proof (allE_perm _ _ (perm_swap2 Bs i j B B2 EB EB2)) as Pm. split; cbn [w_heap w_tabs].
      - apply f2_lupd; [apply f2_lupd; [exact Ok|]|]; (split; [apply (inv_clock key hash keq _ (w_clock w)); assumption|assumption]).
      - exact (ids_nodup _ _ (Permutation_sym Pm) Nd).
      - intros x Hx. apply (ids_perm _ _ x Pm). apply Lv. exact Hx. }
    split; [exists (lupd (lupd Bs i B2) j B); exact W'|]. cbn. split; [rewrite !lupd_length; reflexivity|].
    assert (Nt : forall k, nth_error (lupd (lupd (w_tabs w) i (Some (b2, n2))) j (Some (b, n))) k = if Nat.eqb k j then Some (Some (b, n)) else if Nat.eqb k i then Some (Some (b2, n2)) else nth_error (w_tabs w) k).
    { intro k. rewrite !nth_lupd. destruct (Nat.eqb_spec k j) as [Ekj|_]; [rewrite Ekj; destruct (Nat.eqb j i); rewrite Et2; reflexivity|]. destruct (Nat.eqb_spec k i) as [Eki|_]; [rewrite Eki, Et; reflexivity|reflexivity]. }
    assert (Nb : forall k, nth_error (lupd (lupd Bs i B2) j B) k = if Nat.eqb k j then Some B else if Nat.eqb k i then Some B2 else nth_error Bs k).
    { intro k. rewrite !nth_lupd. destruct (Nat.eqb_spec k j) as [Ekj|_]; [rewrite Ekj; destruct (Nat.eqb j i); rewrite EB2; reflexivity|]. destruct (Nat.eqb_spec k i) as [Eki|_]; [rewrite Eki, EB; reflexivity|reflexivity]. }
    split.
    + intros l m k. rewrite !(holds_iff _ _ _ _ _ _ W), !(holds_iff _ _ _ _ _ _ W'). cbn [w_tabs]. rewrite !Nt, !Nb, !Nat.eqb_refl.
      assert (X1 : (exists b0 B0, nth_error (w_tabs w) i = Some (Some (b0, m)) /\ nth_error Bs i = Some B0 /\ l = concat B0 /\ k = length B0) <-> (exists b0 B0, Some (Some (b, n)) = Some (Some (b0, m)) /\ Some B = Some B0 /\ l = concat B0 /\ k = length B0)) by (rewrite Et, EB; reflexivity).
      assert (X2 : (exists b0 B0, nth_error (w_tabs w) j = Some (Some (b0, m)) /\ nth_error Bs j = Some B0 /\ l = concat B0 /\ k = length B0) <-> (exists b0 B0, Some (Some (b2, n2)) = Some (Some (b0, m)) /\ Some B2 = Some B0 /\ l = concat B0 /\ k = length B0)) by (rewrite Et2, EB2; reflexivity).
      split; [exact X1|]. destruct (Nat.eqb_spec i j) as [<-|_]; [|exact X2]. rewrite Et in Et2. rewrite EB in EB2. injection Et2 as <- <-. injection EB2 as <-. exact X2.
    + intros k l m q N1 N2. rewrite !(holds_iff _ _ _ _ _ _ W), !(holds_iff _ _ _ _ _ _ W'). cbn [w_tabs]. rewrite !Nt, !Nb. rewrite (proj2 (Nat.eqb_neq k j) N2), (proj2 (Nat.eqb_neq k i) N1). reflexivity.
  - (* the destructor *) destruct Lg as (l & n & c & H). destruct (there_inv key hash keq w Bs i l n c W H) as (b & B & Et & EB & -> & -> & I & Le). unfold on. rewrite (proj2 (tab_nth w i (b, n)) Et). pose proof (clear_post key hash keq _ B I) as P.
    destruct (clear (St (w_heap w) (w_clock w) b n)) as [s' u|s'|]; cbn [post] in P; [|destruct P|destruct P]. destruct P as (I' & T & N'). cbn [put_back w_heap w_clock w_tabs].
    assert (E : lupd (lupd (w_tabs w) i (Some (bks s', num s'))) i None = lupd (w_tabs w) i None) by apply lupd_twice. rewrite E.
    assert (W' : WInv (World (heap s') (clock s') (lupd (w_tabs w) i None)) (lupd Bs i [])).
    { apply (frame key hash keq w Bs i (Some (b, n)) B (St (w_heap w) (w_clock w) b n) s' (map (fun _ => []) B) None [] (clock s') W Et EB eq_refl T); [reflexivity|rewrite concat_nils; reflexivity|exact (i_nodup _ _ _ _ _ I')]. }
    split; [exists (lupd Bs i []); exact W'|]. cbn [HashSpec.whole]. split; [exact (others_put key hash keq w Bs i _ _ _ _ _ W eq_refl W')|]. destruct (tab (World (heap s') (clock s') (lupd (w_tabs w) i None)) i) as [p|] eqn:Ep; [|reflexivity]. apply tab_nth in Ep. cbn [w_tabs] in Ep. rewrite nth_lupd, Nat.eqb_refl, Et in Ep. discriminate.
Qed.
Lemma winv0 : WInv world0 [].
Proof. split; [constructor|constructor|]. intros x [n Hx]. destruct x; discriminate. Qed.
Theorem reach_inv ok w : reach key hash keq throws veq ok w -> exists Bs, WInv w Bs.
Proof.
  induction 1 as [|w o w' r R [Bs W] Lg _ E|w o w' R [Bs W] Lg _ E]; [exists []; apply winv0| |].
  - destruct (subject o) as [i|] eqn:Sj.
    + pose proof (step_member key hash keq throws veq keq_sym keq_trans keq_hash w Bs o i W Lg Sj) as G. rewrite E in G. destruct G as (l & n & c & l' & n' & c' & Bs' & _ & _ & _ & W' & _). exists Bs'. exact W'.
    + pose proof (step_whole w Bs o W Lg Sj) as G. rewrite E in G. exact (proj1 G).
  - destruct (subject o) as [i|] eqn:Sj.
    + pose proof (step_member key hash keq throws veq keq_sym keq_trans keq_hash w Bs o i W Lg Sj) as G. rewrite E in G. destruct G as (l & n & c & l' & n' & c' & Bs' & _ & _ & _ & W' & _). exists Bs'. exact W'.
    + pose proof (step_whole w Bs o W Lg Sj) as G. rewrite E in G. exact (proj1 G).
Qed.
End World.
