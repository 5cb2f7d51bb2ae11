(** HashProofs5.v -- C122: more buckets, and copies. *)
From Coq Require Import List NArith Bool Arith Lia Permutation.
Import ListNotations.
From Verif Require Import Base HashModel HashProofs HashProofs2 HashProofs3 HashProofs4.

Section Proofs.
Context {V K : Type}.
Variable key : V -> K.
Variable hash : K -> N.
Variable keq : K -> K -> bool.
Variable throws : nat -> bool.
Hypothesis keq_refl : forall a, keq a a = true.
Hypothesis keq_sym : forall a b, keq a b = true -> keq b a = true.
Hypothesis keq_trans : forall a b c, keq a b = true -> keq b c = true -> keq a c = true.
Hypothesis keq_hash : forall a b, keq a b = true -> hash a = hash b.
Notation el := (nat * V)%type.
Notation ids := (map (@fst nat V)).
Notation kof := (kof key).
Notation alike := (alike key keq).
Notation grouped := (grouped key keq).
Notation slot := (slot hash).
Notation st := (@st V).
Notation hp := (list (option (@node V))).
Notation Inv := (Inv key hash keq).
Ltac red_st := cbn [with_heap with_bks with_num less tick heap bks num clock].

(** ---- the elements of a list, each put in front of its bucket ---- *)
Definition dist (n : nat) (l : list el) : list (list el) := map (fun j => rev (filter (fun x => Nat.eqb (slot n (kof x)) j) l)) (seq 0 n).
Lemma nth_map_seq {A} (f : nat -> A) n : forall k i, nth_error (map f (seq k n)) i = if Nat.ltb i n then Some (f (k + i)) else None.
Proof.
  induction n as [|n IH]; intros k [|i]; cbn [seq map nth_error]; try reflexivity.
  - cbn. rewrite Nat.add_0_r. reflexivity.
  - rewrite IH. change (Nat.ltb (S i) (S n)) with (Nat.ltb i n). replace (S k + i) with (k + S i) by lia. reflexivity.
Qed.
Lemma dist_nth n l j : j < n -> nth_error (dist n l) j = Some (rev (filter (fun x => Nat.eqb (slot n (kof x)) j) l)).
Proof. intro H. unfold dist. rewrite nth_map_seq. apply Nat.ltb_lt in H. rewrite H. reflexivity. Qed.
Lemma dist_length n l : length (dist n l) = n.
Proof. unfold dist. rewrite map_length, seq_length. reflexivity. Qed.
Lemma list_ext {A} (a b : list A) : (forall i, nth_error a i = nth_error b i) -> a = b.
Proof.
  revert b. induction a as [|x a IH]; intros [|y b] H; [reflexivity|specialize (H 0); discriminate|specialize (H 0); discriminate|]. pose proof (H 0) as H0. injection H0 as ->. f_equal. apply IH. intro i. apply (H (S i)).
Qed.
Lemma dist_snoc n l x : 0 < n -> exists old, nth_error (dist n l) (slot n (kof x)) = Some old /\ dist n (l ++ [x]) = lupd (dist n l) (slot n (kof x)) (x :: old).
Proof.
  intro H. pose proof (slot_lt hash n (kof x) H) as Ls. eexists. split; [apply dist_nth; exact Ls|]. apply list_ext. intro j. destruct (Nat.lt_ge_cases j n) as [Lj|Lj].
  - rewrite (dist_nth n _ j Lj), filter_app. cbn [filter]. destruct (Nat.eqb_spec (slot n (kof x)) j) as [<-|Nj].
    + rewrite nth_lupd_eq by (rewrite dist_length; exact Ls). rewrite rev_app_distr. reflexivity.
    + rewrite nth_lupd_ne by exact Nj. rewrite (dist_nth n l j Lj), app_nil_r. reflexivity.
  - transitivity (@None (list el)); [|symmetry]; apply nth_error_None; rewrite ?lupd_length, dist_length; exact Lj.
Qed.
Lemma dist_perm n l : 0 < n -> Permutation (concat (dist n l)) l.
Proof.
  intro H. induction l as [|x l IH] using rev_ind.
  - assert (E : concat (dist n []) = []) by (unfold dist; cbn [filter rev]; apply concat_nils). rewrite E. constructor.
  - destruct (dist_snoc n l x H) as (old & E & ->). apply (Permutation_trans (lupd_cons_perm _ _ old x E)). apply (Permutation_trans (l' := x :: l)); [constructor; exact IH|]. apply Permutation_cons_append.
Qed.
Lemma dist_in n l j m x : nth_error (dist n l) j = Some m -> In x m -> slot n (kof x) = j /\ In x l.
Proof.
  intros E H. assert (Lj : j < n) by (rewrite <- (dist_length n l); apply nth_error_Some; rewrite E; discriminate). rewrite (dist_nth n l j Lj) in E. injection E as <-. apply in_rev in H. apply filter_In in H. destruct H as [H1 H2]. apply Nat.eqb_eq in H2. auto.
Qed.
Lemma grouped_concat s B : Inv s B -> grouped (concat B).
Proof.
  intro I. pose proof (i_grouped _ _ _ _ _ I) as G. pose proof (i_placed _ _ _ _ _ I) as P. clear I. set (n := length B) in P. clearbody n.
  assert (P' : exists k, forall i l x, nth_error B i = Some l -> In x l -> slot n (kof x) = k + i) by (exists 0; exact P). clear P. destruct P' as [k P]. revert k P. induction G as [|l B Gl G IH]; intros k P; [exact I|].
  cbn [concat]. apply (grouped_app key keq); [exact Gl| |].
  - apply (IH (S k)). intros i m x E H. rewrite (P (S i) m x E H). lia.
  - intros x y Hx Hy A. apply in_concat in Hy. destruct Hy as (m & Hm & Hy). apply In_nth_error in Hm. destruct Hm as [i Hm]. pose proof (P 0 l x eq_refl Hx) as E1. pose proof (P (S i) m y Hm Hy) as E2. rewrite (slot_eq hash keq keq_hash n _ _ A) in E1. lia.
Qed.
Lemma dist_grouped n l : grouped l -> Forall grouped (dist n l).
Proof.
  intro G. unfold dist. rewrite Forall_forall. intros m H. apply in_map_iff in H. destruct H as (j & <- & _). apply (grouped_rev key keq keq_sym keq_trans). apply (grouped_filter key keq); [|exact G].
  intros x y A. rewrite (slot_eq hash keq keq_hash n _ _ A). reflexivity.
Qed.

(** ---- resize ---- *)
Lemma bkt_num_eq (s : st) k n : 0 < n -> bkt_num hash throws s k n = if throws (clock s) then Exc (tick s) else Ret (tick s) (slot n k).
Proof. intro H. destruct n as [|n]; [lia|]. unfold bkt_num, call. destruct (throws (clock s)); reflexivity. Qed.
(** The elements of [l] have been moved, those of B' not yet. *)
Record Mov (s0 s : st) (B0 B' : list (list el)) (n : nat) (tmp : list (option nat)) (l : list el) : Prop := {
  m_num : num s = num s0;
  m_len : length (heap s) = length (heap s0);
  m_old : forall x, ~ In x (ids (concat B0)) -> nth_error (heap s) x = nth_error (heap s0) x;
  m_bk : Forall2 (fun p l => seg (heap s) p l None) (bks s) B';
  m_tmp : Forall2 (fun p l => seg (heap s) p l None) tmp (dist n l);
  m_all : concat B0 = l ++ concat B';
  m_suf : Forall2 (fun l0 l => exists a, l0 = a ++ l) B0 B' }.
Lemma f2_ext (P Q : option nat -> list el -> Prop) bk B : (forall p l, In l B -> P p l -> Q p l) -> Forall2 P bk B -> Forall2 Q bk B.
Proof. intros H F. induction F as [|p l bk B E F IH]; constructor; [apply H; [left; reflexivity|exact E]|]. apply IH. intros q m Hm. apply H. right. exact Hm. Qed.
Lemma in_ids_concat (B : list (list el)) l x : In l B -> In x (ids l) -> In x (ids (concat B)).
Proof. intros H1 H2. apply in_ids in H2. destruct H2 as [v H2]. apply in_ids. exists v. apply in_concat. exists l. auto. Qed.
Lemma f2_app_l {A B} (R : A -> B -> Prop) l a b : Forall2 R l (a ++ b) -> exists l1 l2, l = l1 ++ l2 /\ Forall2 R l1 a /\ Forall2 R l2 b.
Proof. revert l. induction a as [|x a IH]; intros l H; [exists [], l; auto|]. inversion H as [|y z l' r1 H1 H2]; subst. destruct (IH _ H2) as (l1 & l2 & -> & F1 & F2). exists (y :: l1), l2. split; [reflexivity|]. split; [constructor; assumption|exact F2]. Qed.
Lemma move_one s0 s B0 E x v r R n tmp l : Mov s0 s B0 (E ++ ((x, v) :: r) :: R) n tmp l -> concat E = [] -> NoDup (ids (concat B0)) -> 0 < n ->
  exists q t, nth_error (bks s) (length E) = Some (Some x) /\ length E < length (bks s) /\ nth_error (heap s) x = Some (Some (Node v q)) /\ nth_error tmp (slot n (key v)) = Some t /\
    Mov s0 (with_heap (with_bks s (lupd (bks s) (length E) q)) (lupd (heap s) x (Some (Node v t)))) B0 (E ++ r :: R) n (lupd tmp (slot n (key v)) (Some x)) (l ++ [(x, v)]).
Proof.
  intros [M1 M2 M3 M4 M5 M6 M7] CE Nd Pn. destruct (f2_app_l _ _ _ _ M4) as (k1 & k2 & Ek & F1 & F2). inversion F2 as [|p l0 k3 R0 Sg F3]; subst. clear F2. pose proof (f2_len _ _ _ F1) as L1. cbn [seg] in Sg. destruct Sg as (-> & q & Eq & Sg).
  destruct (dist_snoc n l (x, v) Pn) as (old & Eo & Ed). change (kof (x, v)) with (key v) in *.
  pose proof (f2_nth _ _ _ M5 (slot n (key v))) as Ft. rewrite Eo in Ft. destruct (nth_error tmp (slot n (key v))) as [t|] eqn:Et; [|contradiction].
  assert (Lx : x < length (heap s)) by (apply nth_error_Some; rewrite Eq; discriminate).
  rewrite M6, concat_app, CE in Nd. cbn [app concat] in Nd. rewrite map_app in Nd. cbn [map fst] in Nd. rewrite map_app in Nd.
  assert (Nl : ~ In x (ids l)) by (intro C; apply (nodup_disj _ _ x Nd C); left; reflexivity).
  assert (Nr : ~ In x (ids (r ++ concat R))). { apply nodup_r in Nd. inversion Nd as [|z m N1 _]; subst. rewrite map_app. exact N1. }
  exists q, t. rewrite Ek. split; [rewrite <- L1; apply nth_mid|]. split; [rewrite app_length; cbn; lia|]. split; [exact Eq|]. split; [reflexivity|].
  assert (Keep : forall B, (forall m, In m B -> ~ In x (ids m)) -> forall bk, Forall2 (fun p l => seg (heap s) p l None) bk B -> Forall2 (fun p l => seg (lupd (heap s) x (Some (Node v t))) p l None) bk B).
  { intros B HB bk. apply f2_ext. intros p m Hm. apply seg_ext. intros y Hy. apply nth_lupd_ne. intros ->. exact (HB m Hm Hy). }
  split; red_st.
  - exact M1.
  - rewrite lupd_length. exact M2.
  - intros y Hy. rewrite nth_lupd_ne; [apply M3; exact Hy|]. intros ->. apply Hy. rewrite M6, concat_app, CE. cbn [app concat]. rewrite map_app, in_app_iff. right. left. reflexivity.
  - rewrite <- L1, lupd_mid. apply Forall2_app; [|constructor].
    + apply Keep; [|exact F1]. intros m Hm C. pose proof (in_ids_concat _ _ _ Hm C) as Q. rewrite CE in Q. destruct Q.
    + apply (seg_ext (heap s)); [|exact Sg]. intros y Hy. apply nth_lupd_ne. intros ->. apply Nr. rewrite map_app, in_app_iff. left. exact Hy.
    + apply Keep; [|exact F3]. intros m Hm C. apply Nr. rewrite map_app, in_app_iff. right. apply (in_ids_concat _ _ _ Hm C).
  - rewrite Ed. assert (HL : forall m, In m (dist n l) -> ~ In x (ids m)).
    { intros m Hm C. apply Nl. apply (ids_perm _ _ x (dist_perm n l Pn)). apply (in_ids_concat _ _ _ Hm C). }
    pose proof (Keep _ HL tmp M5) as Kt. apply f2_of_nth; [rewrite !lupd_length; apply (f2_len _ _ _ M5)|]. intros j p m Hp Hm. destruct (Nat.eq_dec (slot n (key v)) j) as [<-|Nj].
    + rewrite nth_lupd_eq in Hp by (apply nth_error_Some; rewrite Et; discriminate). rewrite nth_lupd_eq in Hm by (apply nth_error_Some; rewrite Eo; discriminate). injection Hp as <-. injection Hm as <-.
      cbn [seg]. split; [reflexivity|]. exists t. split; [apply nth_lupd_eq; exact Lx|]. pose proof (f2_nth _ _ _ Kt (slot n (key v))) as Fj. rewrite Et, Eo in Fj. exact Fj.
    + rewrite nth_lupd_ne in Hp by exact Nj. rewrite nth_lupd_ne in Hm by exact Nj. pose proof (f2_nth _ _ _ Kt j) as Fj. rewrite Hp, Hm in Fj. exact Fj.
  - rewrite M6, !concat_app, CE. cbn [app concat]. rewrite <- app_assoc. reflexivity.
  - destruct (f2_app_l _ _ _ _ M7) as (c1 & c2 & -> & G1 & G2). apply Forall2_app; [exact G1|]. inversion G2 as [|y z c3 R3 (a & Ea) G3]; subst. constructor; [|exact G3]. exists (a ++ [(x, v)]). rewrite <- app_assoc. reflexivity.
Qed.
Lemma mov_tick s0 s B0 B' n tmp l : Mov s0 s B0 B' n tmp l -> Mov s0 (tick s) B0 B' n tmp l.
Proof. intros [M1 M2 M3 M4 M5 M6 M7]. split; assumption. Qed.
Lemma move_chain_post s0 B0 n : NoDup (ids (concat B0)) -> 0 < n -> forall r f s E R tmp l, Mov s0 s B0 (E ++ r :: R) n tmp l -> concat E = [] -> length r < f ->
  post (move_chain key hash throws f s (length E) n tmp) (fun s' o => exists r1 r2, r = r1 ++ r2 /\ (fst o = true -> r2 = []) /\ Mov s0 s' B0 (E ++ r2 :: R) n (snd o) (l ++ r1)) (fun _ => False).
Proof.
  intros Nd Pn. induction r as [|[x v] r IH]; intros f s E R tmp l M CE F; (destruct f as [|f]; [lia|]); cbn [move_chain].
  - apply post_bind. destruct (f2_app_l _ _ _ _ (m_bk _ _ _ _ _ _ _ M)) as (k1 & k2 & Ek & F1 & F2). inversion F2 as [|p l0 k3 R0 Sg F3]; subst. cbn [seg] in Sg. subst p. eapply post_bucket; [rewrite Ek, <- (f2_len _ _ _ F1); apply nth_mid|].
    cbn [post]. exists [], []. split; [reflexivity|]. split; [auto|]. cbn [fst snd]. rewrite app_nil_r. exact M.
  - destruct (move_one s0 s B0 E x v r R n tmp l M CE Nd Pn) as (q & t & Eb & Lb & Eq & Et & M2). apply post_bind. eapply post_bucket; [exact Eb|]. apply post_bind. eapply post_load; [exact Eq|]. cbn [n_val n_next].
    rewrite bkt_num_eq by exact Pn. destruct (throws (clock s)).
    + cbn [post fst snd]. exists [], ((x, v) :: r). split; [reflexivity|]. split; [discriminate|]. rewrite app_nil_r. apply mov_tick. exact M.
    + apply post_bind. apply post_set_bucket; [exact Lb|]. rewrite Et. apply post_bind. eapply post_next; [exact Eq|]. apply mov_tick in M2.
      eapply post_mono; [| |apply (IH f _ E R _ _ M2 CE ltac:(cbn in F; lia))]; [|intros s' []]. intros s' o (r1 & r2 & -> & H1 & H2). exists ((x, v) :: r1), r2. split; [reflexivity|]. split; [exact H1|]. rewrite <- app_assoc in H2. exact H2.
Qed.
Lemma mov_length s0 s B0 B' n tmp l : Mov s0 s B0 B' n tmp l -> length (bks s) = length B' /\ length B0 = length B'.
Proof. intro M. split; [apply (f2_len _ _ _ (m_bk _ _ _ _ _ _ _ M))|apply (f2_len _ _ _ (m_suf _ _ _ _ _ _ _ M))]. Qed.
Lemma mov_bound s0 s B0 B' n tmp l : Mov s0 s B0 B' n tmp l -> NoDup (ids (concat B0)) -> 0 < n -> forall m, In m B' -> length m <= length (heap s).
Proof.
  intros M Nd Pn m Hm. pose proof (m_bk _ _ _ _ _ _ _ M) as F. assert (S : exists p, seg (heap s) p m None). { clear -F Hm. induction F as [|p l0 bk B E F IH]; [destruct Hm|]. destruct Hm as [->|Hm]; [eauto|auto]. }
  destruct S as [p S]. apply (seg_bound _ _ _ _ S). rewrite (m_all _ _ _ _ _ _ _ M), map_app in Nd. apply nodup_r in Nd. apply in_split in Hm. destruct Hm as (b1 & b2 & ->). rewrite concat_app in Nd. cbn [concat] in Nd. rewrite !map_app in Nd. apply nodup_r in Nd. apply nodup_l in Nd. exact Nd.
Qed.
Lemma move_all_post s0 B0 n : NoDup (ids (concat B0)) -> 0 < n -> forall R s E tmp l, Mov s0 s B0 (E ++ R) n tmp l -> concat E = [] ->
  post (move_all key hash throws s (seq (length E) (length R)) n tmp) (fun s' o => exists B' l', Mov s0 s' B0 B' n (snd o) l' /\ (fst o = true -> concat B' = [])) (fun _ => False).
Proof.
  intros Nd Pn. induction R as [|r R IH]; intros s E tmp l M CE; cbn [length seq move_all].
  - cbn [post fst snd]. exists (E ++ []), l. split; [exact M|]. intros _. rewrite app_nil_r. exact CE.
  - apply post_bind. eapply post_mono; [| |apply (move_chain_post s0 B0 n Nd Pn r (fuel s) s E R tmp l M CE)]; [|intros s' []|].
    + intros s1 [ok tmp1] (r1 & r2 & -> & H1 & M1). cbn [fst snd] in *. destruct ok.
      * rewrite (H1 eq_refl) in M1. assert (ER : E ++ [] :: R = (E ++ [[]]) ++ R) by (rewrite <- app_assoc; reflexivity). rewrite ER in M1. replace (S (length E)) with (length (E ++ [@nil el])) by (rewrite app_length; cbn; lia).
        apply (IH s1 (E ++ [[]]) tmp1 _ M1). rewrite concat_app, CE. reflexivity.
      * cbn [post fst snd]. exists (E ++ r2 :: R), (l ++ r1). split; [exact M1|discriminate].
    + pose proof (mov_bound _ _ _ _ _ _ _ M Nd Pn r) as Bd. unfold fuel. specialize (Bd ltac:(rewrite in_app_iff; right; left; reflexivity)). lia.
Qed.
Lemma delete_all_post T : forall s tmp, Forall2 (fun p l => seg (heap s) p l None) tmp T -> NoDup (ids (concat T)) -> post (delete_all s tmp) (fun s' _ => Freed s s' (concat T)) (fun _ => False).
Proof.
  induction T as [|l T IH]; intros s tmp F Nd; inversion F as [|p l0 tm T0 Sg Ft]; subst; cbn [delete_all concat].
  - cbn [post]. split; auto. intros x [].
  - cbn [concat] in Nd. rewrite map_app in Nd. apply post_bind. eapply post_mono; [| |apply (delete_chain_post l (fuel s) s p Sg (nodup_l _ _ Nd))]; [|intros s' []|pose proof (seg_bound _ _ _ _ Sg (nodup_l _ _ Nd)); unfold fuel; lia].
    intros s1 u [F1 F2 F3 F4 F5]. eapply post_mono; [| |apply (IH s1 tm)]; [|intros s' []| |apply (nodup_r _ _ Nd)].
    + intros s2 u2 [G1 G2 G3 G4 G5]. split; try congruence.
      * intros x Hx. rewrite map_app, in_app_iff in Hx. rewrite G4, F4 by tauto. reflexivity.
      * intros x Hx. destruct (in_dec Nat.eq_dec x (ids (concat T))) as [D|D]; [apply G5; exact D|]. rewrite map_app, in_app_iff in Hx. rewrite G4 by exact D. apply F5. tauto.
    + revert Ft. apply f2_ext. intros q m Hm. apply seg_ext. intros y Hy. apply F4. intro C. apply (nodup_disj _ _ y Nd C). apply (in_ids_concat _ _ _ Hm Hy).
Qed.
Definition target_count (old hint : nat) : nat := if Nat.ltb old hint then Nat.max old (N.to_nat (next_prime (N.of_nat hint))) else old.
Definition resized (s : st) B (s' : st) B' : Prop := Inv s' B' /\ Step s B s' B' /\ Permutation (concat B') (concat B) /\ num s' = num s.
(** After an exception: the first elements are lost. *)
Definition lost (s : st) B (s' : st) B' l : Prop := Inv s' B' /\ Step s B s' B' /\ length B' = length B /\ concat B = l ++ concat B' /\ num s' = num s.
Lemma suf_in (B0 B' : list (list el)) : Forall2 (fun l0 l => exists a, l0 = a ++ l) B0 B' -> forall i l, nth_error B' i = Some l -> exists a, nth_error B0 i = Some (a ++ l).
Proof. induction 1 as [|l0 l B0 B' (a & ->) F IH]; intros [|i] m E; try discriminate; [injection E as <-; exists a; reflexivity|apply IH; exact E]. Qed.
Lemma resize_post s B hint : Inv s B -> B <> [] ->
  post (resize key hash throws s hint) (fun s' _ => exists B', resized s B s' B' /\ length B' = target_count (length B) hint /\ (length B' = length B -> B' = B)) (fun s' => exists B' l, lost s B s' B' l).
Proof.
  intros I NB. assert (L0 : 0 < length B) by (destruct B; [congruence|cbn; lia]). unfold resize, target_count. rewrite (inv_length key hash keq s B I).
  assert (Same : resized s B s B) by (split; [exact I|split; [apply (step_sim key hash keq); [exact I|apply sim_refl]|split; [apply Permutation_refl|reflexivity]]]).
  destruct (Nat.ltb_spec (length B) hint) as [H1|H1]; [|cbn [post]; exists B; auto]. set (n := N.to_nat (next_prime (N.of_nat hint))). destruct (Nat.ltb_spec (length B) n) as [H2|H2]; [|cbn [post]; exists B; split; [exact Same|]; split; [lia|auto]].
  apply post_bind. apply post_call.
  2:{ exists B, []. split; [apply (inv_sim key hash keq s); [exact I|apply sim_tick]|]. split; [apply (step_sim key hash keq); [exact I|apply sim_tick]|]. auto. }
  assert (Pn : 0 < n) by lia. pose proof (i_nodup _ _ _ _ _ I) as Nd.
  assert (M0 : Mov s (tick s) B B n (repeat None n) []).
  { split; auto.
    - apply (i_seg _ _ _ _ _ I).
    - unfold dist. cbn [filter rev]. clear. generalize 0. induction n as [|n IH]; intro k; cbn; constructor; auto. reflexivity.
    - clear. induction B as [|l B IH]; constructor; [exists []; reflexivity|exact IH]. }
  apply post_bind. eapply post_mono; [| |apply (move_all_post s B n Nd Pn B (tick s) [] (repeat None n) [] M0 eq_refl)]; [|intros s' []].
  intros s1 [ok tmp] (B' & l & M & Hok). cbn [fst snd] in *. pose proof M as [M1 M2 M3 M4 M5 M6 M7]. destruct ok.
  - specialize (Hok eq_refl). rewrite Hok, app_nil_r in M6. cbn [post]. exists (dist n l). assert (P : Permutation (concat (dist n l)) (concat B)) by (rewrite M6; apply dist_perm; exact Pn).
    split; [|split; [rewrite dist_length; lia|intro C; rewrite dist_length in C; lia]]. split; [|split; [|split; [exact P|exact M1]]].
    + split; red_st.
      * exact M5.
      * apply (ids_nodup _ _ (Permutation_sym P) Nd).
      * rewrite dist_length. intros i m x E Hx. apply (dist_in n l i m x E Hx).
      * apply dist_grouped. rewrite <- M6. apply (grouped_concat s B I).
    + split; red_st.
      * lia.
      * intros x _ Hx. apply M3. exact Hx.
      * intros x Hx. left. apply (ids_perm _ _ x P). exact Hx.
      * intros x [Hx|Hx] Lv; [apply (ids_perm _ _ x P); exact Hx|apply live_lt in Lv; lia].
  - assert (Pl : Permutation (concat (dist n l)) l) by (apply dist_perm; exact Pn). pose proof Nd as Nd0. rewrite M6, map_app in Nd0.
    apply post_bind. eapply post_mono; [| |apply (delete_all_post (dist n l) s1 tmp M5)]; [|intros s' []|apply (ids_nodup _ _ (Permutation_sym Pl)); apply (nodup_l _ _ Nd0)].
    intros s2 u [F1 F2 F3 F4 F5]. cbn [post]. exists B', l.
    assert (In_l : forall x, In x (ids (concat (dist n l))) <-> In x (ids l)) by (intro x; apply ids_perm; exact Pl).
    split; [|split; [|split; [symmetry; apply (f2_len _ _ _ M7)|split; [exact M6|congruence]]]].
    + split.
      * rewrite F1. revert M4. apply f2_ext. intros p m Hm. apply seg_ext. intros y Hy. apply F4. rewrite In_l. intro C. apply (nodup_disj _ _ y Nd0 C). apply (in_ids_concat _ _ _ Hm Hy).
      * apply (nodup_r _ _ Nd0).
      * rewrite <- (f2_len _ _ _ M7). intros i m x E Hx. destruct (suf_in _ _ M7 i m E) as [a Ea]. apply (i_placed _ _ _ _ _ I i _ x Ea). rewrite in_app_iff. right. exact Hx.
      * rewrite Forall_forall. intros m Hm. apply In_nth_error in Hm. destruct Hm as [i E]. destruct (suf_in _ _ M7 i m E) as [a Ea]. apply (grouped_part key keq a). apply (bucket_grouped key hash keq s B i _ I Ea).
    + split.
      * lia.
      * intros x _ Hx. rewrite F4; [apply M3; exact Hx|]. rewrite In_l. intro C. apply Hx. rewrite M6, map_app, in_app_iff. left. exact C.
      * intros x Hx. left. rewrite M6, map_app, in_app_iff. right. exact Hx.
      * intros x [Hx|Hx] Lv; [|apply live_lt in Lv; lia]. rewrite M6, map_app, in_app_iff in Hx. destruct Hx as [Hx|Hx]; [|exact Hx]. exfalso. destruct Lv as [z Ez]. rewrite (F5 x) in Ez by (rewrite In_l; exact Hx). discriminate.
Qed.

(** ---- copies ---- *)
Lemma grouped_vals (l l' : list el) : map snd l = map snd l' -> grouped l -> grouped l'.
Proof.
  revert l'. induction l as [|x l IH]; intros [|y l'] E G; try discriminate; [exact I|]. cbn [map] in E. injection E as E1 E2. destruct G as [G1 G2]. cbn [HashProofs.grouped]. split; [|apply IH; assumption].
  assert (Ek : kof y = kof x) by (unfold HashProofs.kof; congruence).
  intros (z & Hz & A). assert (Z : exists z', In z' l /\ alike x z').
  { apply (in_map snd) in Hz. rewrite <- E2 in Hz. apply in_map_iff in Hz. destruct Hz as (z' & Ez & Hz). exists z'. split; [exact Hz|]. unfold HashProofs.alike, HashProofs.kof in *. rewrite Ez. congruence. }
  specialize (G1 Z). destruct l as [|w l], l' as [|w' l']; try discriminate; [exact I|]. cbn [map] in E2. injection E2 as E3 _. unfold HashProofs.alike, HashProofs.kof in *. congruence.
Qed.
Lemma seg_snoc_end (h : hp) p a x v : seg h p (a ++ [(x, v)]) None -> nth_error h x = Some (Some (Node v None)).
Proof. intro H. apply seg_app in H. destruct H as (m & _ & (_ & n & En & E)). cbn in E. subst n. exact En. Qed.
(** A new node at the end of a bucket. *)
Lemma append_node s B i a c vc v : Inv s B -> nth_error B i = Some (a ++ [(c, vc)]) -> slot (length B) (key v) = i -> grouped (a ++ [(c, vc); (length (heap s), v)]) ->
  let s' := with_heap s (lupd (heap s ++ [Some (Node v None)]) c (Some (Node vc (Some (length (heap s)))))) in let l' := a ++ [(c, vc); (length (heap s), v)] in
  Inv s' (lupd B i l') /\ Step s B s' (lupd B i l').
Proof.
  intros I E Sl Gr s' l'. assert (Li : i < length B) by (apply nth_error_Some; rewrite E; discriminate). destruct (inv_bucket key hash keq s B i I Li) as (p & l0 & E1 & E2 & Sg). rewrite E in E2. injection E2 as <-.
  pose proof (inv_list_nodup key hash keq s _ _ _ I E) as Nd. pose proof (seg_snoc_end _ _ _ _ _ Sg) as Ec. assert (Lc : c < length (heap s)) by (apply nth_error_Some; rewrite Ec; discriminate).
  assert (Ho : forall x, x < length (heap s) -> x <> c -> nth_error (heap s') x = nth_error (heap s) x) by (intros x Hx Nx; unfold s'; red_st; rewrite nth_lupd_ne by congruence; apply nth_snoc_lt; exact Hx).
  assert (Lh : length (heap s') = S (length (heap s))) by (unfold s'; red_st; rewrite lupd_length, app_length; cbn; lia).
  apply (change_bucket key hash keq s B i _ s' p l' I E).
  - unfold s'. red_st. symmetry. apply lupd_same. exact E1.
  - unfold l'. pose proof Sg as Sg0. apply seg_app in Sg0. destruct Sg0 as (m & Sa & (-> & _)). apply seg_app. exists (Some c). split.
    + apply (seg_ext (heap s)); [|exact Sa]. intros y Hy. apply Ho.
      * apply (seg_lt _ _ _ _ _ Sa Hy).
      * intros ->. rewrite map_app in Nd. apply (nodup_disj _ _ c Nd Hy). left. reflexivity.
    + cbn [seg]. split; [reflexivity|]. eexists. split; [unfold s'; red_st; apply nth_lupd_eq; rewrite app_length; cbn; lia|]. split; [reflexivity|]. exists None. split; [|reflexivity]. unfold s'; red_st. rewrite nth_lupd_ne by lia. apply nth_snoc_eq.
  - unfold l'. change [(c, vc); (length (heap s), v)] with ([(c, vc)] ++ [(length (heap s), v)]). rewrite app_assoc, map_app. apply nodup_app; [exact Nd|repeat constructor; intros []|]. intros x Hx [<-|[]]. pose proof (seg_lt _ _ _ _ _ Sg Hx). cbn [fst] in *. lia.
  - lia.
  - intros x Hx Hn. apply Ho; [exact Hx|]. intros ->. apply Hn. rewrite map_app, in_app_iff. right. left. reflexivity.
  - intros x. unfold l'. rewrite !map_app, !in_app_iff. cbn [map fst In]. intros [C|[C|[C|[]]]]; auto. right. lia.
  - intros x C Lv. unfold l'. rewrite !map_app, !in_app_iff in *. cbn [map fst In] in *. apply live_lt in Lv. rewrite Lh in Lv. destruct C as [[C|[C|[]]]|C]; auto. right. right. left. lia.
  - intros x. unfold l'. change [(c, vc); (length (heap s), v)] with ([(c, vc)] ++ [(length (heap s), v)]). rewrite app_assoc, in_app_iff. intros [C|[<-|[]]]; [apply (i_placed _ _ _ _ _ I i _ x E C)|exact Sl].
  - exact Gr.
Qed.
(** Nodes that are not of this table. *)
Definition apart (s : st) (B : list (list el)) (l : list el) : Prop := forall x, In x (ids l) -> x < length (heap s) /\ ~ In x (ids (concat B)).
Lemma apart_step s B s' B' l : Step s B s' B' -> apart s B l -> apart s' B' l.
Proof. intros [T1 T2 T3 T4] A x Hx. destruct (A x Hx) as [A1 A2]. split; [lia|]. intro C. destruct (T3 x C) as [C'|C']; [contradiction|lia]. Qed.
Lemma seg_apart s B s' B' p l q : Step s B s' B' -> apart s B l -> seg (heap s) p l q -> seg (heap s') p l q.
Proof. intros T A. apply seg_ext. intros x Hx. destruct (A x Hx) as [A1 A2]. apply (t_old _ _ _ _ T); assumption. Qed.
Definition copying (s : st) (B : list (list el)) (s' : st) : Prop := exists B', Inv s' B' /\ Step s B s' B' /\ length B' = length B.
Lemma copy_rest_post r : forall f s B i a c vc p a0, Inv s B -> nth_error B i = Some (a ++ [(c, vc)]) -> seg (heap s) p r None -> apart s B r ->
  (forall x, In x r -> slot (length B) (kof x) = i) -> map snd a0 = map snd (a ++ [(c, vc)]) -> grouped (a0 ++ r) -> length r < f ->
  post (copy_rest throws f s c p) (fun s' _ => exists r', map snd r' = map snd r /\ Inv s' (lupd B i (a ++ (c, vc) :: r')) /\ Step s B s' (lupd B i (a ++ (c, vc) :: r'))) (copying s B).
Proof.
  induction r as [|[x v] r IH]; intros f s B i a c vc p a0 I E Sg Ap Pl Ev Gr F; (destruct f as [|f]; [lia|]); cbn [copy_rest].
  - cbn in Sg. subst p. cbn [post]. exists []. split; [reflexivity|]. rewrite (lupd_same B i _ E). split; [exact I|apply (step_sim key hash keq); [exact I|apply sim_refl]].
  - destruct Sg as (-> & q & Eq & Sg). assert (Li : i < length B) by (apply nth_error_Some; rewrite E; discriminate).
    apply post_bind. eapply post_load; [exact Eq|]. cbn [n_val n_next]. apply post_bind. apply post_new.
    2:{ exists B. split; [apply (inv_sim key hash keq s); [exact I|apply sim_tick]|]. split; [apply (step_sim key hash keq); [exact I|apply sim_tick]|reflexivity]. }
    assert (It : Inv (tick s) B) by (apply (inv_sim key hash keq s); [exact I|apply sim_tick]). assert (Tt : Step s B (tick s) B) by (apply (step_sim key hash keq); [exact I|apply sim_tick]).
    destruct (append_node (tick s) B i a c vc v It E) as [I2 T2]; cbn [tick heap].
    { apply (Pl (x, v)). left. reflexivity. }
    { assert (Gp : grouped (a0 ++ [(x, v)])). { assert (E0 : a0 ++ (x, v) :: r = (a0 ++ [(x, v)]) ++ r ++ []) by (rewrite app_nil_r, <- app_assoc; reflexivity). rewrite E0 in Gr. apply (grouped_drops key keq keq_sym keq_trans) in Gr. rewrite app_nil_r in Gr. exact Gr. }
      revert Gp. apply grouped_vals. change [(c, vc); (length (heap s), v)] with ([(c, vc)] ++ [(length (heap s), v)]). rewrite app_assoc, !map_app, Ev, map_app. reflexivity. }
    cbv zeta in I2, T2. pose proof (step_trans _ _ _ _ _ _ Tt T2) as T3. apply post_bind. destruct (inv_bucket key hash keq s B i I Li) as (p' & l0 & E1 & E2 & Sg1). rewrite E in E2. injection E2 as <-. pose proof (seg_snoc_end _ _ _ _ _ Sg1) as Ec.
    assert (Lc : c < length (heap s)) by (apply nth_error_Some; rewrite Ec; discriminate).
    eapply post_next; [red_st; rewrite nth_snoc_lt by exact Lc; exact Ec|].
    assert (Apr : apart s B r) by (intros y Hy; apply Ap; right; exact Hy).
    match goal with |- post (copy_rest _ _ ?s1 _ _) _ _ => set (s2 := s1); change (Inv s2 (lupd B i (a ++ [(c, vc); (length (heap s), v)]))) in I2; change (Step s B s2 (lupd B i (a ++ [(c, vc); (length (heap s), v)]))) in T3 end.
    assert (Ea : forall m, a ++ (c, vc) :: m = (a ++ [(c, vc)]) ++ m) by (intro m; rewrite <- app_assoc; reflexivity).
    assert (E2 : nth_error (lupd B i (a ++ [(c, vc); (length (heap s), v)])) i = Some ((a ++ [(c, vc)]) ++ [(length (heap s), v)])) by (rewrite nth_lupd_eq by exact Li; rewrite <- Ea; reflexivity).
    eapply post_mono; [| |apply (IH f s2 _ i (a ++ [(c, vc)]) (length (heap s)) v q (a0 ++ [(x, v)]) I2 E2)].
    + intros s' u (r' & Er & I3 & T4). rewrite lupd_twice in I3, T4. exists ((length (heap s), v) :: r'). split; [cbn [map snd]; congruence|]. rewrite Ea. split; [exact I3|exact (step_trans _ _ _ _ _ _ T3 T4)].
    + intros s' (B' & H1 & H2 & H3). exists B'. split; [exact H1|]. split; [exact (step_trans _ _ _ _ _ _ T3 H2)|]. rewrite H3. apply lupd_length.
    + apply (seg_apart s B s2 _ q r None T3 Apr Sg).
    + apply (apart_step s B s2 _ r T3 Apr).
    + rewrite lupd_length. intros y Hy. apply Pl. right. exact Hy.
    + rewrite !map_app, Ev, map_app. reflexivity.
    + rewrite <- app_assoc. exact Gr.
    + cbn in F. lia.
Qed.
Lemma new_in_empty s B i v : Inv s B -> nth_error B i = Some [] -> slot (length B) (key v) = i ->
  let s' := with_bks (with_heap s (heap s ++ [Some (Node v None)])) (lupd (bks s) i (Some (length (heap s)))) in let l' := [(length (heap s), v)] in Inv s' (lupd B i l') /\ Step s B s' (lupd B i l').
Proof.
  intros I E Sl s' l'. assert (Lh : length (heap s') = S (length (heap s))) by (unfold s'; red_st; rewrite app_length; cbn; lia).
  apply (change_bucket key hash keq s B i _ s' (Some (length (heap s))) l' I E).
  - reflexivity.
  - cbn [seg l']. split; [reflexivity|]. exists None. split; [unfold s'; red_st; apply nth_snoc_eq|reflexivity].
  - repeat constructor. intros [].
  - lia.
  - intros x Hx _. unfold s'; red_st. apply nth_snoc_lt. exact Hx.
  - intros x [<-|[]]. right. apply le_n.
  - intros x [[]|Hx] Lv. apply live_lt in Lv. rewrite Lh in Lv. left. cbn [fst]. lia.
  - intros x [<-|[]]. exact Sl.
  - cbn. split; [intros (z & [] & _)|exact Logic.I].
Qed.
Lemma copy_buckets_post Bs : forall s Bc src, Inv s (Bc ++ map (fun _ => []) Bs) -> Forall2 (fun p l => seg (heap s) p l None) src Bs -> apart s (Bc ++ map (fun _ => []) Bs) (concat Bs) ->
  (forall j l x, nth_error Bs j = Some l -> In x l -> slot (length Bc + length Bs) (kof x) = length Bc + j) -> Forall grouped Bs -> NoDup (ids (concat Bs)) ->
  post (copy_buckets throws s (length Bc) src) (fun s' _ => exists Bd, map (map snd) Bd = map (map snd) Bs /\ Inv s' (Bc ++ Bd) /\ Step s (Bc ++ map (fun _ => []) Bs) s' (Bc ++ Bd)) (copying s (Bc ++ map (fun _ => []) Bs)).
Proof.
  induction Bs as [|l Bs IH]; intros s Bc src I F Ap Pl Gr Nd; inversion F as [|p l0 src' Bs0 Sg Ft]; subst; cbn [copy_buckets map] in *.
  - cbn [post]. exists []. split; [reflexivity|]. split; [exact I|apply (step_sim key hash keq); [exact I|apply sim_refl]].
  - inversion Gr as [|l0 Bs0 Gl Gr']; subst. cbn [concat] in Nd, Ap. rewrite map_app in Nd. set (Bn := map (fun _ => []) Bs) in *.
    assert (ER : forall m R, Bc ++ m :: R = (Bc ++ [m]) ++ R) by (intros m R; rewrite <- app_assoc; reflexivity).
    assert (LS : forall m, length (Bc ++ [m]) = S (length Bc)) by (intro m; rewrite app_length; cbn; lia).
    assert (Apl : apart s (Bc ++ [] :: Bn) l) by (intros x Hx; apply Ap; rewrite map_app, in_app_iff; auto).
    assert (Apr : apart s (Bc ++ [] :: Bn) (concat Bs)) by (intros x Hx; apply Ap; rewrite map_app, in_app_iff; auto).
    assert (Pl' : forall m j l1 x, nth_error Bs j = Some l1 -> In x l1 -> slot (length (Bc ++ [m]) + length Bs) (kof x) = length (Bc ++ [m]) + j).
    { intros m j l1 x E Hx. rewrite LS. specialize (Pl (S j) l1 x E Hx). cbn [length] in Pl. replace (S (length Bc) + length Bs) with (length Bc + S (length Bs)) by lia. rewrite Pl. lia. }
    assert (Rest : forall s1 l1, map snd l1 = map snd l -> Inv s1 (Bc ++ l1 :: Bn) -> Step s (Bc ++ [] :: Bn) s1 (Bc ++ l1 :: Bn) ->
      post (copy_buckets throws s1 (S (length Bc)) src') (fun s' _ => exists Bd, map (map snd) Bd = map (map snd) (l :: Bs) /\ Inv s' (Bc ++ Bd) /\ Step s (Bc ++ [] :: Bn) s' (Bc ++ Bd)) (copying s (Bc ++ [] :: Bn))).
    { intros s1 l1 E1 I1 T1. rewrite <- (LS l1). rewrite (ER l1 Bn) in I1, T1. eapply post_mono; [| |apply (IH s1 (Bc ++ [l1]) src' I1)].
      - intros s' u (Bd & E2 & I2 & T2). exists (l1 :: Bd). rewrite (ER l1 Bd). split; [cbn [map]; congruence|]. split; [exact I2|exact (step_trans _ _ _ _ _ _ T1 T2)].
      - intros s' (B' & H1 & H2 & H3). exists B'. split; [exact H1|]. split; [exact (step_trans _ _ _ _ _ _ T1 H2)|]. rewrite H3, (ER [] Bn), !app_length. reflexivity.
      - revert Ft. apply f2_ext. intros q m Hm. apply (seg_apart s _ s1 _ q m None T1). intros x Hx. apply Apr. apply (in_ids_concat _ _ _ Hm Hx).
      - apply (apart_step s _ s1 _ _ T1 Apr).
      - intros j l2 x E Hx. apply (Pl' l1 j l2 x E Hx).
      - exact Gr'.
      - apply (nodup_r _ _ Nd). }
    destruct l as [|[x v] r].
    + cbn in Sg. subst p. apply (Rest s []); [reflexivity|exact I|apply (step_sim key hash keq); [exact I|apply sim_refl]].
    + destruct Sg as (-> & q & Eq & Sg). apply post_bind. eapply post_load; [exact Eq|]. cbn [n_val n_next]. apply post_bind.
      assert (It : Inv (tick s) (Bc ++ [] :: Bn)) by (apply (inv_sim key hash keq s); [exact I|apply sim_tick]). assert (Tt : Step s (Bc ++ [] :: Bn) (tick s) (Bc ++ [] :: Bn)) by (apply (step_sim key hash keq); [exact I|apply sim_tick]).
      apply post_new; [|exists (Bc ++ [] :: Bn); auto].
      assert (Ln : length (Bc ++ [] :: Bn) = length Bc + S (length Bs)) by (rewrite app_length; unfold Bn; cbn [length]; rewrite map_length; reflexivity).
      destruct (new_in_empty (tick s) _ (length Bc) v It (nth_mid _ _ _)) as [I2 T2]. { rewrite Ln. pose proof (Pl 0 _ (x, v) eq_refl (or_introl eq_refl)) as P0. cbn [length] in P0. rewrite Nat.add_0_r in P0. exact P0. }
      rewrite lupd_mid in I2, T2. cbv zeta in I2, T2. pose proof (step_trans _ _ _ _ _ _ Tt T2) as T3. apply post_bind. apply post_set_bucket; [red_st; rewrite (inv_length key hash keq s _ I), Ln; lia|]. apply post_bind.
      match goal with |- post (copy_rest _ _ ?s1 _ _) _ _ => set (s2 := s1); change (Inv s2 (Bc ++ [(length (heap s), v)] :: Bn)) in I2; change (Step s (Bc ++ [] :: Bn) s2 (Bc ++ [(length (heap s), v)] :: Bn)) in T3 end.
      assert (Apr2 : apart s (Bc ++ [] :: Bn) r) by (intros y Hy; apply Apl; right; exact Hy).
      assert (Ln2 : length (Bc ++ [(length (heap s), v)] :: Bn) = length Bc + S (length Bs)) by (rewrite app_length in *; exact Ln).
      eapply post_mono; [| |apply (copy_rest_post r (fuel s2) s2 (Bc ++ [(length (heap s), v)] :: Bn) (length Bc) [] (length (heap s)) v q [(x, v)] I2 (nth_mid _ _ _))].
      * intros s' u (r' & Er & I3 & T4). rewrite lupd_mid in I3, T4. cbn [app] in I3, T4. apply (Rest s' ((length (heap s), v) :: r')); [cbn [map snd]; congruence|exact I3|exact (step_trans _ _ _ _ _ _ T3 T4)].
      * intros s' (B' & H1 & H2 & H3). exists B'. split; [exact H1|]. split; [exact (step_trans _ _ _ _ _ _ T3 H2)|]. rewrite H3, !app_length. reflexivity.
      * apply (seg_apart s _ s2 _ q r None T3 Apr2 Sg).
      * apply (apart_step s _ s2 _ r T3 Apr2).
      * intros y Hy. rewrite Ln2. pose proof (Pl 0 _ y eq_refl (or_intror Hy)) as P0. rewrite Nat.add_0_r in P0. exact P0.
      * reflexivity.
      * exact Gl.
      * pose proof (seg_bound _ _ _ _ Sg) as Bd. pose proof (nodup_l _ _ Nd) as N1. cbn [map fst] in N1. inversion N1 as [|z m _ N2]; subst. specialize (Bd N2). unfold fuel, s2. red_st. rewrite app_length. lia.
Qed.
Lemma nils_inv s n : bks s = repeat None n -> Inv s (repeat [] n).
Proof.
  intro E. assert (Z : forall i (l : list el), nth_error (repeat [] n) i = Some l -> l = []) by (intros i l H; apply nth_error_In in H; apply repeat_spec in H; exact H).
  split.
  - rewrite E. clear. induction n; cbn; constructor; [reflexivity|assumption].
  - assert (C : concat (repeat (@nil el) n) = []) by (clear; induction n; [reflexivity|assumption]). rewrite C. constructor.
  - intros i l x H Hx. rewrite (Z i l H) in Hx. destruct Hx.
  - rewrite Forall_forall. intros l H. apply repeat_spec in H. subst l. exact I.
Qed.
Lemma repeat_map {A B} (x : A) (l : list B) : repeat x (length l) = map (fun _ => x) l.
Proof. induction l; cbn; congruence. Qed.
(** The table is empty before; [src] is another one. *)
Lemma copy_from_post s B0 src k sc : Inv (St (heap s) sc src k) B0 -> forall B, Inv s B -> concat B = [] ->
  post (copy_from throws s src k) (fun s' _ => exists B', Inv s' B' /\ Step s [] s' B' /\ map (map snd) B' = map (map snd) B0 /\ num s' = k)
    (fun s' => exists B', Inv s' B' /\ Step s [] s' B' /\ concat B' = [] /\ (B' = [] /\ num s' = num s \/ length B' = length B0 /\ num s' = 0)).
Proof.
  intros I0 B I CE. unfold copy_from. apply post_bind.
  assert (Nil : Inv (tick (with_bks s [])) []) by (apply (nils_inv _ 0); reflexivity).
  assert (T0 : forall bk B', concat B' = [] -> Step s [] (St (heap s) (S (clock s)) bk (num s)) B').
  { intros bk B' E'. split; cbn [heap concat map]; auto; [rewrite E'; intros x []|]. intros x [[]|Hx] Lv. apply live_lt in Lv. cbn [heap] in Lv. lia. }
  apply post_call; [|exists []; split; [exact Nil|]; split; [apply (T0 [] []); reflexivity|split; [reflexivity|left; split; reflexivity]]].
  red_st. pose proof (inv_length key hash keq _ _ I0) as Ls. cbn [bks] in Ls. set (s1 := St (heap s) (S (clock s)) (repeat None (length src)) (num s)).
  assert (I1 : Inv s1 (map (fun _ => []) B0)) by (rewrite <- repeat_map, <- Ls; apply nils_inv; reflexivity).
  assert (T1 : Step s [] s1 (map (fun _ => []) B0)) by (apply T0; apply concat_nils).
  pose proof (copy_buckets_post B0 s1 [] src I1) as P. cbn [app length] in P.
  match type of P with ?A1 -> ?A2 -> ?A3 -> ?A4 -> ?A5 -> _ => assert (P1 : A1); [|assert (P2 : A2); [|assert (P3 : A3); [|assert (P4 : A4); [|assert (P5 : A5); [|specialize (P P1 P2 P3 P4 P5); clear P1 P2 P3 P4 P5]]]]] end.
  - exact (i_seg _ _ _ _ _ I0).
  - intros x Hx. split; [apply live_lt; apply (inv_live key hash keq _ _ x I0 Hx)|]. rewrite concat_nils. intros [].
  - intros j l x E Hx. apply (i_placed _ _ _ _ _ I0 j l x E Hx).
  - apply (i_grouped _ _ _ _ _ I0).
  - apply (i_nodup _ _ _ _ _ I0).
  - change (with_bks (tick (with_bks s [])) (repeat None (length src))) with s1. destruct (copy_buckets throws s1 0 src) as [s2 u|s2|]; cbn [post] in *; [|destruct P as (B2 & I2 & T2 & L2)|contradiction].
    + destruct P as (Bd & E & I2 & T2). exists Bd. split; [destruct I2; split; assumption|]. pose proof (step_trans _ _ _ _ _ _ T1 T2) as T3. split; [destruct T3; split; assumption|]. split; [exact E|reflexivity].
    + apply post_bind. eapply post_mono; [| |apply (clear_post key hash keq s2 B2 I2)]; [|intros s' []]. intros s3 u (I3 & T3 & N3). cbn [post]. exists (map (fun _ => []) B2). split; [exact I3|]. split; [exact (step_trans _ _ _ _ _ _ T1 (step_trans _ _ _ _ _ _ T2 T3))|]. split; [apply concat_nils|]. right. split; [rewrite map_length, L2, map_length; reflexivity|exact N3].
Qed.
End Proofs.
