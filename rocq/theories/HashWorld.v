(** HashWorld.v -- C122: several tables in one heap. *)
From Coq Require Import List NArith Bool Arith Lia Permutation.
Import ListNotations.
From Verif Require Import Base HashModel HashSpec HashProofs HashProofs2 HashProofs3 HashProofs4 HashProofs5 HashProofs6.

Section World.
Context {V K : Type}.
Variable key : V -> K.
Variable hash : K -> N.
Variable keq : K -> K -> bool.
Variable throws : nat -> bool.
Variable veq : V -> V -> bool.
Hypothesis keq_refl : forall a, keq a a = true.
Hypothesis keq_sym : forall a b, keq a b = true -> keq b a = true.
Hypothesis keq_trans : forall a b c, keq a b = true -> keq b c = true -> keq a c = true.
Hypothesis keq_hash : forall a b, keq a b = true -> hash a = hash b.
Notation el := (nat * V)%type.
Notation ids := (map (@fst nat V)).
Notation kof := (kof key).
Notation st := (@st V).
Notation world := (@world V).
Notation hp := (list (option (@node V))).
Notation Inv := (Inv key hash keq).
Notation holds := (holds key hash).
Notation others := (others key hash).
Notation tabt := (option (list (option nat) * nat)).
Ltac red_st := cbn [with_heap with_bks with_num less tick heap bks num clock].

Definition allE (Bs : list (list (list el))) : list el := concat (map (@concat el) Bs).
Definition tab_ok (h : hp) (t : tabt) (B : list (list el)) : Prop :=
  match t with None => B = [] | Some (b, n) => Inv (St h 0 b n) B /\ length (concat B) <= n end.
Record WInv (w : world) (Bs : list (list (list el))) : Prop := {
  w_ok : Forall2 (tab_ok (w_heap w)) (w_tabs w) Bs;
  w_nodup : NoDup (ids (allE Bs));
  w_live : forall x, live (w_heap w) x -> In x (ids (allE Bs)) }.

Lemma inv_frame (h h' : hp) c b n c' n' B : Inv (St h c b n) B -> (forall x, In x (ids (concat B)) -> nth_error h' x = nth_error h x) -> Inv (St h' c' b n') B.
Proof.
  intros [Sg Nd Pl Gr] H. split; [|exact Nd|exact Pl|exact Gr]. red_st. cbn [heap bks] in Sg. clear Nd Pl Gr. induction Sg as [|p l bk B Sg F IH]; constructor.
  - apply (seg_ext h); [|exact Sg]. intros x Hx. apply H. cbn [concat]. rewrite map_app, in_app_iff. left. exact Hx.
  - apply IH. intros x Hx. apply H. cbn [concat]. rewrite map_app, in_app_iff. right. exact Hx.
Qed.
Lemma allE_mid X B Y : allE (X ++ B :: Y) = allE X ++ concat B ++ allE Y.
Proof. unfold allE. rewrite map_app, concat_app. reflexivity. Qed.
Lemma allE_perm Bs Bs' : Permutation Bs Bs' -> Permutation (allE Bs) (allE Bs').
Proof. induction 1; unfold allE in *; cbn; [constructor|apply Permutation_app_head; assumption| |etransitivity; eassumption]. rewrite !app_assoc. apply Permutation_app_tail, Permutation_app_comm. Qed.
Lemma ids_app (a b : list el) x : In x (ids (a ++ b)) <-> In x (ids a) \/ In x (ids b).
Proof. rewrite map_app, in_app_iff. reflexivity. Qed.
Lemma f2_mid {A B} (R : A -> B -> Prop) a x b a' x' b' : length a = length a' -> Forall2 R (a ++ x :: b) (a' ++ x' :: b') -> Forall2 R a a' /\ R x x' /\ Forall2 R b b'.
Proof.
  revert a'. induction a as [|y a IH]; intros [|y' a'] L F; try discriminate; cbn in F; inversion F as [|p q r s R1 F1]; subst.
  - split; [constructor|]. split; assumption.
  - destruct (IH a' ltac:(cbn in L; lia) F1) as (H1 & H2 & H3). split; [constructor; assumption|]. split; assumption.
Qed.
Lemma f2_unmid {A B} (R : A -> B -> Prop) a x b a' x' b' : Forall2 R a a' -> R x x' -> Forall2 R b b' -> Forall2 R (a ++ x :: b) (a' ++ x' :: b').
Proof. intros H1 H2 H3. apply Forall2_app; [exact H1|constructor; assumption]. Qed.
Lemma tab_ids h ts Bs x : Forall2 (tab_ok h) ts Bs -> In x (ids (allE Bs)) -> live h x.
Proof.
  induction 1 as [|t B ts Bs T F IH]; [intros []|]. unfold allE. cbn [map concat]. rewrite ids_app. intros [H|H]; [|apply IH; exact H]. destruct t as [[b n]|]; cbn in T; [|subst; destruct H]. destruct T as [I _]. exact (inv_live key hash keq _ _ _ I H).
Qed.
Lemma tabs_frame (h h' : hp) ts Bs : Forall2 (tab_ok h) ts Bs -> (forall x, In x (ids (allE Bs)) -> nth_error h' x = nth_error h x) -> Forall2 (tab_ok h') ts Bs.
Proof.
  induction 1 as [|t B ts Bs T F IH]; intro H; constructor.
  - destruct t as [[b n]|]; cbn in *; [|exact T]. destruct T as [I L]. split; [|exact L]. apply (inv_frame h h' 0 b n); [exact I|]. intros x Hx. apply H. unfold allE. cbn [map concat]. rewrite ids_app. left. exact Hx.
  - apply IH. intros x Hx. apply H. unfold allE. cbn [map concat]. rewrite ids_app. right. exact Hx.
Qed.
Lemma frame w Bs i t B (s0 s' : st) B' t' B2 c' : WInv w Bs -> nth_error (w_tabs w) i = Some t -> nth_error Bs i = Some B -> heap s0 = w_heap w -> Step s0 B s' B' ->
  tab_ok (heap s') t' B2 -> concat B2 = concat B' -> NoDup (ids (concat B')) -> WInv (World (heap s') c' (lupd (w_tabs w) i t')) (lupd Bs i B2).
Proof.
  intros [Ok Nd Lv] Et EB Eh [Tl To Tm Tv] Ok' E2 Nd'. rewrite Eh in *. destruct (lupd_split _ _ _ Et) as (t1 & t2 & E1 & L1 & U1). destruct (lupd_split _ _ _ EB) as (X & Y & EX & L2 & U2). rewrite U1, U2.
  rewrite EX in Nd, Lv. rewrite allE_mid in Nd, Lv. rewrite EX, E1 in Ok. assert (L12 : length t1 = length X) by (rewrite L1, L2; reflexivity). destruct (f2_mid _ _ _ _ _ _ _ L12 Ok) as (F1 & _ & F2).
  rewrite !map_app in Nd.
  assert (DX : forall x, In x (ids (allE X)) -> In x (ids (concat B)) -> False). { intros x H1 H2. apply (nodup_disj _ _ _ Nd H1). rewrite in_app_iff. left. exact H2. }
  assert (DY : forall x, In x (ids (allE Y)) -> In x (ids (concat B)) -> False). { intros x H1 H2. exact (nodup_disj _ _ _ (nodup_r _ _ Nd) H2 H1). }
  assert (KX : forall x, In x (ids (allE X)) -> x < length (w_heap w)) by (intros x Hx; apply live_lt, (tab_ids _ _ _ _ F1 Hx)).
  assert (KY : forall x, In x (ids (allE Y)) -> x < length (w_heap w)) by (intros x Hx; apply live_lt, (tab_ids _ _ _ _ F2 Hx)).
  split; cbn [w_heap w_tabs w_clock].
  - apply f2_unmid; [|exact Ok'|].
    + apply (tabs_frame _ _ _ _ F1). intros x Hx. apply To; [exact (KX x Hx)|]. intro C. exact (DX x Hx C).
    + apply (tabs_frame _ _ _ _ F2). intros x Hx. apply To; [exact (KY x Hx)|]. intro C. exact (DY x Hx C).
  - rewrite allE_mid, E2, !map_app. apply nodup_app; [exact (nodup_l _ _ Nd)| |].
    + apply nodup_app; [exact Nd'|exact (nodup_r _ _ (nodup_r _ _ Nd))|]. intros x H1 H2. destruct (Tm x H1) as [H|H]; [exact (DY x H2 H)|]. specialize (KY x H2). lia.
    + intros x H1 H2. rewrite in_app_iff in H2. destruct H2 as [H2|H2].
      * destruct (Tm x H2) as [H|H]; [exact (DX x H1 H)|]. specialize (KX x H1). lia.
      * apply (nodup_disj _ _ _ Nd H1). rewrite in_app_iff. right. exact H2.
  - intros x Lx. rewrite allE_mid, E2, !ids_app. destruct (in_dec Nat.eq_dec x (ids (concat B))) as [Hb|Hb]; [right; left; apply Tv; [left; exact Hb|exact Lx]|].
    destruct (Nat.lt_ge_cases x (length (w_heap w))) as [Lt|Ge]; [|right; left; apply Tv; [right; exact Ge|exact Lx]].
    destruct Lx as [nd Lx]. rewrite (To x Lt Hb) in Lx. assert (L0 : live (w_heap w) x) by (exists nd; exact Lx). specialize (Lv x L0). rewrite !ids_app in Lv. destruct Lv as [H|[H|H]]; [left; exact H|contradiction|right; right; exact H].
Qed.
Lemma f2_nth_error {A B} (R : A -> B -> Prop) a b i x : Forall2 R a b -> nth_error a i = Some x -> exists y, nth_error b i = Some y /\ R x y.
Proof. intro F. revert i. induction F as [|p q a b H F IH]; intros [|i] E; try discriminate; cbn in *; [injection E as <-; exists q; split; [reflexivity|exact H]|apply IH; exact E]. Qed.
Lemma tab_nth (w : world) i p : tab w i = Some p <-> nth_error (w_tabs w) i = Some (Some p).
Proof.
  unfold tab. generalize (w_tabs w). clear. intro l. revert i. induction l as [|x l IH]; intros [|i]; cbn; [split; discriminate|split; discriminate| |apply IH].
  split; [intros ->; reflexivity|intro H; injection H as ->; reflexivity].
Qed.
Lemma inv_clock (h : hp) c b n c' B : Inv (St h c b n) B -> Inv (St h c' b n) B.
Proof. intro I. apply (inv_frame h h c b n c' n B I). reflexivity. Qed.
Lemma holds_iff w Bs i l n c : WInv w Bs -> (holds w i l n c <-> exists b B, nth_error (w_tabs w) i = Some (Some (b, n)) /\ nth_error Bs i = Some B /\ l = concat B /\ c = length B).
Proof.
  intros [Ok _ _]. split.
  - intros (s & (b & n0 & Et & Es) & W & -> & ->). apply tab_nth in Et. destruct (f2_nth_error _ _ _ _ _ Ok Et) as (B & EB & T). destruct T as [I _]. exists b, B. subst s. cbn [num bks] in *. split; [exact Et|]. split; [exact EB|].
    apply (inv_clock _ _ _ _ (w_clock w)) in I. split; [|apply (inv_length key hash keq _ _ I)]. exact (walk_fun key hash _ _ _ _ W (walk_all key hash keq _ _ I)).
  - intros (b & B & Et & EB & -> & ->). destruct (f2_nth_error _ _ _ _ _ Ok Et) as (B' & EB' & T). rewrite EB in EB'. injection EB' as <-. destruct T as [I _]. apply (inv_clock _ _ _ _ (w_clock w)) in I.
    exists (St (w_heap w) (w_clock w) b n). split; [exists b, n; split; [apply tab_nth; exact Et|reflexivity]|]. split; [apply (walk_all key hash keq); exact I|]. split; [reflexivity|]. symmetry. apply (inv_length key hash keq _ _ I).
Qed.
Lemma nth_lupd {A} (l : list A) i j x : nth_error (lupd l i x) j = if Nat.eqb j i then (match nth_error l j with Some _ => Some x | None => None end) else nth_error l j.
Proof. revert i j. induction l as [|y l IH]; intros [|i] [|j]; cbn; try reflexivity; try (destruct (Nat.eqb j i); reflexivity). apply IH. Qed.
Lemma tabs_len w Bs : WInv w Bs -> length (w_tabs w) = length Bs.
Proof. intros [Ok _ _]. exact (f2_len _ _ _ Ok). Qed.
Lemma others_put w Bs i h c t' B2 w' : WInv w Bs -> w' = World h c (lupd (w_tabs w) i t') -> WInv w' (lupd Bs i B2) -> others w w' i.
Proof.
  intros W -> W'. split; [cbn [w_tabs]; apply lupd_length|]. intros j l n k Hj. rewrite (holds_iff _ _ _ _ _ _ W), (holds_iff _ _ _ _ _ _ W'). cbn [w_tabs].
  assert (E : Nat.eqb j i = false) by (apply Nat.eqb_neq; exact Hj). split; intros (b & B & E1 & E2 & E3 & E4); exists b, B; rewrite !nth_lupd, E in *; repeat split; assumption.
Qed.
Lemma put_ok w Bs i b n B (s' : st) B' : WInv w Bs -> nth_error (w_tabs w) i = Some (Some (b, n)) -> nth_error Bs i = Some B ->
  Step (St (w_heap w) (w_clock w) b n) B s' B' -> Inv s' B' -> length (concat B') <= num s' ->
  WInv (put_back w i s') (lupd Bs i B') /\ holds (put_back w i s') i (concat B') (num s') (length B') /\ others w (put_back w i s') i.
Proof.
  intros W Et EB T I L. assert (W' : WInv (put_back w i s') (lupd Bs i B')).
  { unfold put_back. apply (frame w Bs i (Some (b, n)) B (St (w_heap w) (w_clock w) b n) s' B' _ B' (clock s') W Et EB eq_refl T); [|reflexivity|exact (i_nodup _ _ _ _ _ I)]. split; [|exact L]. apply (inv_sim key hash keq s'); [exact I|repeat split]. }
  split; [exact W'|]. split; [|exact (others_put w Bs i _ _ _ _ _ W eq_refl W')].
  apply (holds_iff _ _ _ _ _ _ W'). exists (bks s'), B'. cbn [put_back w_tabs]. rewrite !nth_lupd, Nat.eqb_refl, Et, EB. repeat split.
Qed.
(** ---- a member function ---- *)
Definition fits (s0 : st) B (s' : st) B' : Prop := Inv s' B' /\ Step s0 B s' B' /\ length (concat B') <= num s'.
Lemma on_post {T} w Bs i b n B (f : st -> @out V T) rp (Q : nat -> list (list el) -> T -> Prop) (E : nat -> list (list el) -> Prop) :
  WInv w Bs -> nth_error (w_tabs w) i = Some (Some (b, n)) -> nth_error Bs i = Some B ->
  post (f (St (w_heap w) (w_clock w) b n)) (fun s' a => exists B', fits (St (w_heap w) (w_clock w) b n) B s' B' /\ Q (num s') B' a)
    (fun s' => exists B', fits (St (w_heap w) (w_clock w) b n) B s' B' /\ E (num s') B') ->
  match on w i f rp with
  | WRet w' r => exists n' B' a, Q n' B' a /\ r = rp a /\ WInv w' (lupd Bs i B') /\ holds w' i (concat B') n' (length B') /\ others w w' i
  | WThrow w' => exists n' B', E n' B' /\ WInv w' (lupd Bs i B') /\ holds w' i (concat B') n' (length B') /\ others w w' i
  | WBad => False
  end.
Proof.
  intros W Et EB P. unfold on. pose proof (proj2 (tab_nth w i (b, n)) Et) as Et'. rewrite Et'. destruct (f (St (w_heap w) (w_clock w) b n)) as [s' a|s'|]; cbn [post] in P; [| |exact P].
  - destruct P as (B' & (I & T' & L) & HQ). exists (num s'), B', a. split; [exact HQ|]. split; [reflexivity|]. exact (put_ok w Bs i b n B s' B' W Et EB T' I L).
  - destruct P as (B' & (I & T' & L) & HE). exists (num s'), B'. split; [exact HE|]. exact (put_ok w Bs i b n B s' B' W Et EB T' I L).
Qed.
Lemma fits_sim (s0 s' : st) B : Inv s0 B -> length (concat B) <= num s0 -> sim s0 s' -> fits s0 B s' B.
Proof. intros I L S'. split; [apply (inv_sim key hash keq s0); assumption|]. split; [apply (step_sim key hash keq); assumption|]. destruct S' as (_ & _ & ->). exact L. Qed.
(** What is known of a table that is there. *)
Lemma there_inv w Bs i l n c : WInv w Bs -> holds w i l n c -> exists b B, nth_error (w_tabs w) i = Some (Some (b, n)) /\ nth_error Bs i = Some B /\ l = concat B /\ c = length B /\
  Inv (St (w_heap w) (w_clock w) b n) B /\ length (concat B) <= n.
Proof.
  intros W H. pose proof W as [Ok _ _]. apply (holds_iff _ _ _ _ _ _ W) in H. destruct H as (b & B & Et & EB & El & Ec). exists b, B. destruct (f2_nth_error _ _ _ _ _ Ok Et) as (B' & EB' & T). rewrite EB in EB'. injection EB' as <-. destruct T as [I L].
  repeat (split; [assumption|]). split; [apply (inv_clock _ 0); exact I|exact L].
Qed.
End World.
