(** OwnProps.v -- property C129: kwiversys::auto_ptr. *)
From Coq Require Import List Bool Arith Lia.
Import ListNotations.
From Verif Require Import Base OwnModel OwnSpec.

Lemma nth_up {A} (l : list A) i j x d : i < length l -> nth j (lupd l i x) d = if i =? j then x else nth j l d.
Proof.
  intro H. destruct (Nat.eqb_spec i j) as [<-|N].
  - pose proof (nth_lupd_eq l i x H) as E. apply nth_error_nth with (d := d) in E. exact E.
  - pose proof (nth_lupd_ne l i j x N) as E. destruct (nth_error l j) as [y|] eqn:F.
    + apply nth_error_nth with (d := d) in E. apply nth_error_nth with (d := d) in F. congruence.
    + apply nth_error_None in E. apply nth_error_None in F. rewrite !nth_overflow; auto.
Qed.
Lemma lupd_lupd {A} (l : list A) i x y : lupd (lupd l i x) i y = lupd l i y.
Proof. revert i. induction l as [|a l IH]; intros [|i]; cbn; try reflexivity. f_equal. apply IH. Qed.
Lemma has_lt i l : has i l -> i < length l.
Proof. unfold has. intro H. destruct (le_lt_dec (length l) i) as [G|G]; [rewrite nth_overflow in H by exact G; discriminate|exact G]. Qed.
Lemma nth_snoc {A} (l : list A) x i d : nth i (l ++ [x]) d = if i =? length l then x else nth i l d.
Proof.
  destruct (Nat.eqb_spec i (length l)) as [->|N]; [apply nth_middle|]. destruct (le_lt_dec (length l) i) as [G|G].
  - rewrite !nth_overflow; [reflexivity|exact G|rewrite app_length; cbn; lia].
  - apply app_nth1. exact G.
Qed.
Lemma nth_e {A} (l : list A) i d : i < length l -> nth_error l i = Some (nth i l d). Proof. apply nth_error_nth'. Qed.

Lemma is_owner_spec x y : is_owner x y = true <-> x = y.
Proof.
  destruct x, y; cbn; try rewrite Nat.eqb_eq; split; intro H; congruence.
Qed.
Lemma hand_eq x y f o : f o = x -> hand x y f o = y. Proof. intro H. unfold hand. now rewrite (proj2 (is_owner_spec _ _) H). Qed.
Lemma hand_ne x y f o : f o <> x -> hand x y f o = f o.
Proof. intro H. unfold hand. destruct (is_owner (f o) x) eqn:E; [|reflexivity]. apply is_owner_spec in E. congruence. Qed.

(** The memory shows the owners. *)
Record shows (m : mem) (w : world) : Prop := {
  s_objs : length (m_alive m) = w_objs w;
  s_alive : forall o, o < w_objs w -> (nth o (m_alive m) false = true <-> w_own w o <> Gone);
  s_ptrs : length (m_ptr m) = length (w_ptrs w);
  s_live : forall a, get a m <> None <-> has a (w_ptrs w);
  s_get : forall a o, get a m = Some (Some o) <-> o < w_objs w /\ w_own w o = Auto a;
  s_refs : length (m_ref m) = length (w_refs w);
  s_ref : forall r, has r (w_refs w) -> forall o, nth r (m_ref m) None = Some o <-> o < w_objs w /\ w_own w o = Ref r;
  s_pend : forall o r, o < w_objs w -> w_own w o = Ref r -> has r (w_refs w);
  s_once : NoDup (m_log m);
  s_log : forall o, In o (m_log m) <-> o < w_objs w /\ w_own w o = Gone }.
Definition own_ (f : nat -> owner) (w : world) : world := World f (w_objs w) (w_ptrs w) (w_refs w).
Lemma shows_ext m w f : shows m w -> (forall o, o < w_objs w -> f o = w_own w o) -> shows m (own_ f w).
Proof.
  intros [] E. constructor; cbn; auto.
  - intros o H. rewrite E by exact H. auto.
  - intros a o. rewrite s_get0. split; intros (H & Q); (split; [exact H|]); rewrite E in * by exact H; auto.
  - intros r H o. rewrite s_ref0 by exact H. split; intros (G & Q); (split; [exact G|]); rewrite E in * by exact G; auto.
  - intros o r H Q. rewrite E in Q by exact H. eauto.
  - intro o. rewrite s_log0. split; intros (G & Q); (split; [exact G|]); rewrite E in * by exact G; auto.
Qed.
Lemma hand_iff x y f o z : z <> y -> z <> x -> (hand x y f o = z <-> f o = z).
Proof. intros H1 H2. unfold hand. destruct (is_owner (f o) x) eqn:E; [apply is_owner_spec in E|]; split; intro; congruence. Qed.
Lemma hand_old x y f o : x <> y -> hand x y f o <> x.
Proof. intro H. unfold hand. destruct (is_owner (f o) x) eqn:E; [congruence|]. intro Q. rewrite (proj2 (is_owner_spec _ _) Q) in E. discriminate. Qed.

Lemma get_set a x m b : a < length (m_ptr m) -> get b (set_ptr a x m) = if a =? b then Some x else get b m.
Proof. intro H. unfold get, set_ptr. cbn. now apply nth_up. Qed.
Lemma opt_none (x : option nat) : (forall o, x = Some o -> False) -> x = None. Proof. destruct x as [o|]; [|auto]. intro H. elim (H o eq_refl). Qed.
Lemma p_release m w a : shows m w -> has a (w_ptrs w) -> exists x m', release a m = Some (x, m') /\ m' = set_ptr a None m /\ get a m = Some x /\
  shows m' (own_ (hand (Auto a) Program (w_own w)) w) /\ forall o, x = Some o <-> o < w_objs w /\ w_own w o = Auto a.
Proof.
  intros S Ha. pose proof S as []. pose proof (has_lt _ _ Ha) as La. rewrite <- s_ptrs0 in La. unfold release. destruct (get a m) as [x|] eqn:G; [|elim (proj2 (s_live0 a) Ha G)].
  exists x, (set_ptr a None m). split; [reflexivity|]. split; [reflexivity|]. split; [reflexivity|]. split.
  - constructor; cbn [own_ w_own w_objs w_ptrs w_refs]; auto.
    + intros o H. cbn. rewrite s_alive0 by exact H. unfold hand. destruct (is_owner (w_own w o) (Auto a)) eqn:E; [apply is_owner_spec in E|]; [split; congruence|tauto].
    + cbn. rewrite lupd_length. exact s_ptrs0.
    + intro b. rewrite get_set by exact La. destruct (Nat.eqb_spec a b) as [<-|N]; [split; [auto|discriminate]|apply s_live0].
    + intros b o. rewrite get_set by exact La. destruct (Nat.eqb_spec a b) as [<-|N].
      * split; [discriminate|]. intros (_ & H). elim (hand_old (Auto a) Program (w_own w) o ltac:(discriminate) H).
      * rewrite s_get0. rewrite hand_iff by (congruence || discriminate). reflexivity.
    + intros r H o. cbn. rewrite s_ref0 by exact H. rewrite hand_iff by discriminate. reflexivity.
    + intros o r H Q. rewrite hand_iff in Q by discriminate. eauto.
    + intro o. cbn. rewrite s_log0, hand_iff by discriminate. reflexivity.
  - intro o. rewrite <- s_get0, G. split; congruence.
Qed.
Lemma p_delete m w p : shows m w -> mine p w -> exists m', delete p m = Some m' /\ m_ptr m' = m_ptr m /\ shows m' (own_ (give p Gone (w_own w)) w).
Proof.
  intros S Hp. pose proof S as []. destruct p as [q|]; [|exists m; split; [reflexivity|]; split; [reflexivity|]; apply (shows_ext m w); auto]. destruct Hp as (Hq & Q). cbn [delete].
  assert (A : nth q (m_alive m) false = true) by (apply s_alive0; [exact Hq|congruence]). rewrite A. eexists. split; [reflexivity|]. split; [reflexivity|].
  constructor; cbn; auto.
  - rewrite lupd_length. exact s_objs0.
  - intros o H. rewrite nth_up by lia. destruct (Nat.eqb_spec q o) as [<-|N]; [split; congruence|now apply s_alive0].
  - intros a o. fold (get a m). change (nth a (m_ptr m) None) with (get a m). rewrite s_get0. destruct (Nat.eqb_spec q o) as [<-|N]; [|tauto]. split; intros (H & Z); congruence.
  - intros r H o. rewrite s_ref0 by exact H. destruct (Nat.eqb_spec q o) as [<-|N]; [|tauto]. split; intros (G & Z); congruence.
  - intros o r H Z. destruct (q =? o); [discriminate|eauto].
  - constructor; [|exact s_once0]. intro I. apply s_log0 in I. destruct I as (_ & I). congruence.
  - intro o. rewrite s_log0. destruct (Nat.eqb_spec q o) as [<-|N]; [tauto|]. split; [intros [H|H]; [congruence|exact H]|auto].
Qed.
Lemma p_set m w a p : shows m w -> has a (w_ptrs w) -> (forall o, o < w_objs w -> w_own w o <> Auto a) -> mine p w -> shows (set_ptr a p m) (own_ (give p (Auto a) (w_own w)) w).
Proof.
  intros S Ha Na Hp. pose proof S as []. pose proof (has_lt _ _ Ha) as La. rewrite <- s_ptrs0 in La.
  assert (G : forall o y, y <> Program -> y <> Auto a -> (o < w_objs w /\ give p (Auto a) (w_own w) o = y <-> o < w_objs w /\ w_own w o = y)).
  { intros o y N1 N2. unfold give. destruct p as [q|]; [|tauto]. destruct (Nat.eqb_spec q o) as [<-|N]; [|tauto]. destruct Hp as (H1 & H2). split; intros (Z & Q); congruence. }
  constructor; cbn [own_ w_own w_objs w_ptrs w_refs]; auto.
  - intros o H. cbn. rewrite s_alive0 by exact H. unfold give. destruct p as [q|]; [|tauto]. destruct (Nat.eqb_spec q o) as [<-|N]; [|tauto]. destruct Hp as (H1 & H2). split; congruence.
  - cbn. rewrite lupd_length. exact s_ptrs0.
  - intro b. rewrite get_set by exact La. destruct (Nat.eqb_spec a b) as [<-|N]; [split; [auto|discriminate]|apply s_live0].
  - intros b o. rewrite get_set by exact La. destruct (Nat.eqb_spec a b) as [<-|N].
    + unfold give. destruct p as [q|].
      * destruct Hp as (H1 & H2). destruct (Nat.eqb_spec q o) as [<-|N]; [split; auto|]. split; [congruence|]. intros (H & Z). elim (Na o H Z).
      * split; [discriminate|]. intros (H & Z). elim (Na o H Z).
    + rewrite s_get0. symmetry. apply G; congruence.
  - intros r H o. cbn. rewrite s_ref0 by exact H. symmetry. apply G; discriminate.
  - intros o r H Q. destruct (proj1 (G o (Ref r) ltac:(discriminate) ltac:(discriminate)) (conj H Q)) as (_ & Z). eauto.
  - intro o. cbn. rewrite s_log0. symmetry. apply G; discriminate.
Qed.
Definition add_ptr (w : world) : world := World (w_own w) (w_objs w) (w_ptrs w ++ [true]) (w_refs w).
Lemma own_new m w : shows m w -> forall o, o < w_objs w -> w_own w o <> Auto (length (w_ptrs w)).
Proof. intros [] o H Q. assert (G : get (length (w_ptrs w)) m = Some (Some o)) by (apply s_get0; auto). assert (P : has (length (w_ptrs w)) (w_ptrs w)) by (apply s_live0; congruence). apply has_lt in P. lia. Qed.
Lemma p_ctor m w p : shows m w -> mine p w -> shows (ctor p m) (own_ (give p (Auto (length (w_ptrs w))) (w_own w)) (add_ptr w)).
Proof.
  intros S Hp. assert (K : shows (ctor None m) (add_ptr w)).
  { pose proof (own_new m w S) as NW. pose proof S as []. constructor; cbn; auto.
    - rewrite !app_length. cbn. lia.
    - intro a. unfold get, has. cbn. rewrite !nth_snoc, s_ptrs0. destruct (a =? length (w_ptrs w)); [split; [auto|discriminate]|apply s_live0].
    - intros a o. unfold get. cbn. rewrite nth_snoc, s_ptrs0. destruct (Nat.eqb_spec a (length (w_ptrs w))) as [->|N]; [|apply s_get0]. split; [discriminate|]. intros (H & Q). elim (NW o H Q). }
  assert (E : ctor p m = set_ptr (length (w_ptrs w)) p (ctor None m)).
  { unfold ctor, set_ptr. cbn. f_equal. rewrite <- (s_ptrs m w S). clear. induction (m_ptr m) as [|x l IH]; [reflexivity|]. cbn. f_equal. exact IH. }
  rewrite E. apply (p_set _ (add_ptr w)); [exact K| |apply (own_new m w S)|exact Hp].
  unfold has. cbn. rewrite nth_snoc, Nat.eqb_refl. reflexivity.
Qed.
Lemma p_kill m w a : shows m w -> has a (w_ptrs w) -> (forall o, o < w_objs w -> w_own w o <> Auto a) ->
  shows (Mem (m_alive m) (lupd (m_ptr m) a None) (m_ref m) (m_log m)) (World (w_own w) (w_objs w) (off a (w_ptrs w)) (w_refs w)).
Proof.
  intros S Ha Na. pose proof S as []. pose proof (has_lt _ _ Ha) as La. constructor; cbn; auto.
  - unfold off. rewrite !lupd_length. exact s_ptrs0.
  - intro b. unfold get, has, off. cbn. rewrite !nth_up by lia. destruct (a =? b); [split; congruence|apply s_live0].
  - intros b o. unfold get. cbn. rewrite nth_up by lia. destruct (Nat.eqb_spec a b) as [<-|N]; [|apply s_get0]. split; [discriminate|]. intros (H & Q). elim (Na o H Q).
Qed.
Lemma p_addref m w p : shows m w -> mine p w -> shows (Mem (m_alive m) (m_ptr m) (m_ref m ++ [p]) (m_log m)) (World (give p (Ref (length (w_refs w))) (w_own w)) (w_objs w) (w_ptrs w) (w_refs w ++ [true])).
Proof.
  intros S Hp. pose proof S as [].
  assert (NW : forall o, o < w_objs w -> w_own w o <> Ref (length (w_refs w))) by (intros o H Q; pose proof (has_lt _ _ (s_pend0 o _ H Q)); lia).
  assert (G : forall o y, y <> Program -> y <> Ref (length (w_refs w)) -> (o < w_objs w /\ give p (Ref (length (w_refs w))) (w_own w) o = y <-> o < w_objs w /\ w_own w o = y)).
  { intros o y N1 N2. unfold give. destruct p as [q|]; [|tauto]. destruct (Nat.eqb_spec q o) as [<-|N]; [|tauto]. destruct Hp as (H1 & H2). split; intros (Z & Q); congruence. }
  constructor; cbn; auto.
  - intros o H. rewrite s_alive0 by exact H. unfold give. destruct p as [q|]; [|tauto]. destruct (Nat.eqb_spec q o) as [<-|N]; [|tauto]. destruct Hp as (H1 & H2). split; congruence.
  - intros a o. rewrite G by discriminate. apply s_get0.
  - rewrite !app_length. cbn. lia.
  - intros r H o. unfold has in H. rewrite nth_snoc in H. rewrite nth_snoc. rewrite s_refs0. destruct (Nat.eqb_spec r (length (w_refs w))) as [Er|N]; [subst r|].
    + unfold give. destruct p as [q|]; [|split; [discriminate|intros (Z & Q); elim (NW o Z Q)]]. destruct Hp as (H1 & H2). destruct (Nat.eqb_spec q o) as [<-|N]; [split; auto|]. split; [congruence|]. intros (Z & Q). elim (NW o Z Q).
    + rewrite s_ref0 by exact H. symmetry. apply G; congruence.
  - intros o r H Q. unfold has. rewrite nth_snoc. destruct (Nat.eqb_spec r (length (w_refs w))) as [->|N]; [reflexivity|]. destruct (proj1 (G o (Ref r) ltac:(discriminate) ltac:(congruence)) (conj H Q)) as (_ & Z). exact (s_pend0 o r H Z).
  - intro o. rewrite s_log0. symmetry. apply G; discriminate.
Qed.
Lemma p_takeref m w r : shows m w -> has r (w_refs w) -> exists p, nth_error (m_ref m) r = Some p /\ (forall o, p = Some o <-> o < w_objs w /\ w_own w o = Ref r) /\
  shows m (World (hand (Ref r) Program (w_own w)) (w_objs w) (w_ptrs w) (off r (w_refs w))).
Proof.
  intros S Hr. pose proof S as []. pose proof (has_lt _ _ Hr) as Lr. exists (nth r (m_ref m) None). split; [apply nth_e; lia|]. split; [exact (s_ref0 r Hr)|].
  constructor; cbn; auto.
  - intros o H. rewrite s_alive0 by exact H. unfold hand. destruct (is_owner (w_own w o) (Ref r)) eqn:E; [apply is_owner_spec in E|]; [split; congruence|tauto].
  - intros a o. rewrite hand_iff by discriminate. apply s_get0.
  - unfold off. rewrite lupd_length. exact s_refs0.
  - intros r2 H o. unfold has, off in H. rewrite nth_up in H by exact Lr. destruct (Nat.eqb_spec r r2) as [Er|N]; [discriminate|]. rewrite hand_iff by congruence. now apply s_ref0.
  - intros o r' H Q. unfold has, off. rewrite nth_up by exact Lr. destruct (Nat.eqb_spec r r') as [<-|N]; [elim (hand_old (Ref r) Program (w_own w) o ltac:(discriminate) Q)|]. rewrite hand_iff in Q by congruence. exact (s_pend0 o r' H Q).
  - intro o. rewrite s_log0, hand_iff by discriminate. reflexivity.
Qed.
Lemma p_reset m w a p : shows m w -> has a (w_ptrs w) -> mine p w -> exists m', reset a p m = Some m' /\ shows m' (own_ (give p (Auto a) (hand (Auto a) Gone (w_own w))) w).
Proof.
  intros S Ha Hp. destruct (p_release m w a S Ha) as (x & m1 & _ & -> & G & S1 & X). unfold reset. rewrite G.
  assert (MX : mine x (own_ (hand (Auto a) Program (w_own w)) w)).
  { destruct x as [o|]; [|exact I]. destruct (proj1 (X o) eq_refl) as (H1 & H2). split; [exact H1|]. apply hand_eq. exact H2. }
  destruct (p_delete _ _ x S1 MX) as (m2 & D & P2 & S2).
  assert (D' : exists m3, delete x m = Some m3 /\ set_ptr a None m3 = m2).
  { destruct x as [o|]; cbn [delete] in D |- *; [|injection D as <-; eauto]. unfold set_ptr at 1 in D. cbn [m_alive] in D. destruct (nth o (m_alive m) false); [|discriminate]. injection D as <-. eexists. split; reflexivity. }
  destruct D' as (m3 & D3 & E3).
  assert (NA : forall o, o < w_objs w -> give x Gone (hand (Auto a) Program (w_own w)) o <> Auto a).
  { intros o H. unfold give. destruct x as [q|]; [destruct (q =? o); [discriminate|]|]; apply hand_old; discriminate. }
  assert (NX : forall o, p = Some o -> x <> Some o) by (intros o -> Z; apply X in Z; destruct Hp; destruct Z; congruence).
  assert (FIN : shows (set_ptr a p m2) (own_ (give p (Auto a) (hand (Auto a) Gone (w_own w))) w)).
  { assert (MP : mine p (own_ (give x Gone (hand (Auto a) Program (w_own w))) w)).
    { destruct p as [o|]; [|exact I]. destruct Hp as (H1 & H2). split; [exact H1|]. cbn. unfold give. rewrite hand_ne by congruence. destruct x as [q|]; [|exact H2]. destruct (Nat.eqb_spec q o) as [->|]; [elim (NX o eq_refl eq_refl)|exact H2]. }
    pose proof (p_set m2 _ a p S2 Ha NA MP) as S4. apply (shows_ext _ _ (give p (Auto a) (hand (Auto a) Gone (w_own w))) S4). intros o H. cbn in *. unfold give at 1 2. destruct p as [q|]; [destruct (q =? o); [reflexivity|]|];
      (unfold give; destruct (is_owner (w_own w o) (Auto a)) eqn:E; [apply is_owner_spec in E; rewrite (hand_eq _ Gone _ _ E); rewrite (proj2 (X o) (conj H E)), Nat.eqb_refl; reflexivity|]);
      (assert (N : w_own w o <> Auto a) by (intro Z; rewrite (proj2 (is_owner_spec _ _) Z) in E; discriminate)); rewrite !hand_ne by exact N; (destruct x as [q'|]; [|reflexivity]); (destruct (Nat.eqb_spec q' o) as [->|]; [elim N; apply X; reflexivity|reflexivity]). }
  destruct (match x with Some u => match p with Some v => u =? v | None => false end | None => match p with Some _ => false | None => true end end) eqn:C.
  - destruct x as [u|], p as [v|]; try discriminate; [apply Nat.eqb_eq in C; subst; elim (NX v eq_refl eq_refl)|]. exists m. split; [reflexivity|]. apply (shows_ext m w); [exact S|]. intros o H. cbn. apply hand_ne. intro Z. pose proof (proj2 (X o) (conj H Z)). discriminate.
  - rewrite D3. exists (set_ptr a p m3). split; [reflexivity|]. replace (set_ptr a p m3) with (set_ptr a p m2); [exact FIN|]. rewrite <- E3. unfold set_ptr. cbn. f_equal. apply lupd_lupd.
Qed.
Lemma reset_same a o m : get a m = Some (Some o) -> reset a (Some o) m = Some m.
Proof. intro G. unfold reset. rewrite G, Nat.eqb_refl. reflexivity. Qed.
Lemma p_dtor m w a : shows m w -> has a (w_ptrs w) -> exists m', dtor a m = Some m' /\ shows m' (effect w (ODtor a)).
Proof.
  intros S Ha. destruct (p_release m w a S Ha) as (x & m1 & _ & -> & G & S1 & X). unfold dtor. rewrite G.
  assert (MX : mine x (own_ (hand (Auto a) Program (w_own w)) w)).
  { destruct x as [o|]; [|exact I]. destruct (proj1 (X o) eq_refl) as (H1 & H2). split; [exact H1|]. apply hand_eq. exact H2. }
  destruct (p_delete _ _ x S1 MX) as (m2 & D & P2 & S2).
  assert (D' : exists m3, delete x m = Some m3 /\ set_ptr a None m3 = m2).
  { destruct x as [o|]; cbn [delete] in D |- *; [|injection D as <-; eauto]. unfold set_ptr at 1 in D. cbn [m_alive] in D. destruct (nth o (m_alive m) false); [|discriminate]. injection D as <-. eexists. split; reflexivity. }
  destruct D' as (m3 & D3 & E3). rewrite D3. eexists. split; [reflexivity|].
  assert (NA : forall o, o < w_objs w -> give x Gone (hand (Auto a) Program (w_own w)) o <> Auto a).
  { intros o H. unfold give. destruct x as [q|]; [destruct (q =? o); [discriminate|]|]; apply hand_old; discriminate. }
  pose proof (p_kill m2 _ a S2 Ha NA) as S4. assert (E : Mem (m_alive m3) (lupd (m_ptr m3) a None) (m_ref m3) (m_log m3) = Mem (m_alive m2) (lupd (m_ptr m2) a None) (m_ref m2) (m_log m2)).
  { rewrite <- E3. cbn. f_equal. symmetry. apply lupd_lupd. }
  rewrite E. apply (shows_ext _ _ (hand (Auto a) Gone (w_own w)) S4). intros o H. cbn in *. unfold give.
  destruct (is_owner (w_own w o) (Auto a)) eqn:Z; [apply is_owner_spec in Z; rewrite (hand_eq _ Gone _ _ Z); rewrite (proj2 (X o) (conj H Z)), Nat.eqb_refl; reflexivity|].
  assert (N : w_own w o <> Auto a) by (intro Y; rewrite (proj2 (is_owner_spec _ _) Y) in Z; discriminate). rewrite !hand_ne by exact N. destruct x as [q'|]; [|reflexivity]. destruct (Nat.eqb_spec q' o) as [->|]; [elim N; apply X; reflexivity|reflexivity].
Qed.
(** What was released is the program's, for a moment. *)
Lemma mine_of m w x (y : owner) refs : shows m w -> (forall o, x = Some o <-> o < w_objs w /\ w_own w o = y) -> mine x (World (hand y Program (w_own w)) (w_objs w) (w_ptrs w) refs).
Proof. intros S X. destruct x as [o|]; [|exact I]. destruct (proj1 (X o) eq_refl) as (H1 & H2). split; [exact H1|]. apply hand_eq. exact H2. Qed.
Lemma give_hand (x : option nat) y z n f : (forall o, x = Some o <-> o < n /\ f o = y) -> forall o, o < n -> give x z (hand y Program f) o = hand y z f o.
Proof.
  intros X o H. unfold give. destruct (is_owner (f o) y) eqn:E.
  - apply is_owner_spec in E. rewrite (hand_eq _ z _ _ E), (proj2 (X o) (conj H E)), Nat.eqb_refl. reflexivity.
  - assert (N : f o <> y) by (intro Y; rewrite (proj2 (is_owner_spec _ _) Y) in E; discriminate). rewrite !hand_ne by exact N. destruct x as [q|]; [|reflexivity]. destruct (Nat.eqb_spec q o) as [->|]; [elim N; apply X; reflexivity|reflexivity].
Qed.
Lemma step m w i : shows m w -> allowed w i -> exists m', exec i m = Some m' /\ shows m' (effect w i).
Proof.
  intros S A. destruct i as [|o|p|b|a b|a|a|a p|a|r|a r]; cbn [exec allowed] in *.
  - eexists. split; [reflexivity|]. pose proof S as []. assert (F : forall o y, y <> Program -> (o < Datatypes.S (w_objs w) /\ give (Some (w_objs w)) Program (w_own w) o = y <-> o < w_objs w /\ w_own w o = y)).
    { intros o y N. unfold give. destruct (Nat.eqb_spec (w_objs w) o) as [<-|Q]; [split; intros (H & Z); [congruence|lia]|]. split; intros (H & Z); (split; [lia|exact Z]). }
    constructor; cbn [effect w_own w_objs w_ptrs w_refs m_alive m_ptr m_ref m_log]; auto.
    + rewrite app_length. cbn. lia.
    + intros o H. rewrite nth_snoc, s_objs0. unfold give. destruct (Nat.eqb_spec o (w_objs w)) as [->|N]; [rewrite Nat.eqb_refl; split; [discriminate|auto]|]. destruct (Nat.eqb_spec (w_objs w) o); [congruence|]. apply s_alive0. lia.
    + intros a o. rewrite F by discriminate. apply s_get0.
    + intros r H o. rewrite F by discriminate. now apply s_ref0.
    + intros o r H Q. destruct (proj1 (F o (Ref r) ltac:(discriminate)) (conj H Q)) as (H1 & H2). eauto.
    + intro o. rewrite F by discriminate. apply s_log0.
  - destruct (p_delete m w (Some o) S A) as (m' & D & _ & S'). exists m'. split; [exact D|exact S'].
  - eexists. split; [reflexivity|]. exact (p_ctor m w p S A).
  - destruct (p_release m w b S A) as (x & m1 & R & _ & _ & S1 & X). unfold copy_ctor. rewrite R. eexists. split; [reflexivity|].
    pose proof (p_ctor m1 _ x S1 (mine_of m w x _ _ S X)) as S2. apply (shows_ext _ _ (hand (Auto b) (Auto (length (w_ptrs w))) (w_own w)) S2). intros o H. cbn in *. symmetry. now apply (give_hand x (Auto b) _ (w_objs w)).
  - destruct A as (Aa & Ab). destruct (p_release m w b S Ab) as (x & m1 & R & _ & _ & S1 & X). unfold assign. rewrite R.
    destruct (p_reset m1 _ a x S1 Aa (mine_of m w x _ _ S X)) as (m2 & E2 & S2). exists m2. split; [exact E2|].
    set (f := w_own w) in *. apply (shows_ext _ _ (if a =? b then f else hand (Auto b) (Auto a) (hand (Auto a) Gone f)) S2). intros o H. cbn in *. unfold give.
    destruct (is_owner (f o) (Auto b)) eqn:E.
    + apply is_owner_spec in E. rewrite (proj2 (X o) (conj H E)), Nat.eqb_refl. destruct (Nat.eqb_spec a b) as [->|N]; [exact E|]. apply hand_eq. rewrite hand_ne; [exact E|congruence].
    + assert (N : f o <> Auto b) by (intro Y; rewrite (proj2 (is_owner_spec _ _) Y) in E; discriminate). assert (Q : match x with Some q => q =? o | None => false end = false) by (destruct x as [q|]; [|reflexivity]; destruct (Nat.eqb_spec q o) as [->|]; [elim N; apply X; reflexivity|reflexivity]).
      assert (V : match x with Some q => if q =? o then Auto a else hand (Auto a) Gone (hand (Auto b) Program f) o | None => hand (Auto a) Gone (hand (Auto b) Program f) o end = hand (Auto a) Gone (hand (Auto b) Program f) o) by (destruct x as [q|]; [rewrite Q|]; reflexivity).
      rewrite V. assert (W : hand (Auto a) Gone (hand (Auto b) Program f) o = hand (Auto a) Gone f o) by (unfold hand; rewrite E; reflexivity). rewrite W. destruct (Nat.eqb_spec a b) as [->|N2]; [rewrite hand_ne by exact N; reflexivity|].
      rewrite hand_ne; [reflexivity|]. unfold hand. destruct (is_owner (f o) (Auto a)); [discriminate|exact N].
  - exact (p_dtor m w a S A).
  - destruct (p_release m w a S A) as (x & m1 & R & _ & _ & S1 & X). rewrite R. exists m1. split; [reflexivity|exact S1].
  - destruct A as (Aa & [Hp|(o & -> & Ho & Q)]).
    + destruct (p_reset m w a p S Aa Hp) as (m' & E & S'). exists m'. split; [exact E|]. destruct p as [o|]; [|exact S']. destruct Hp as (H1 & H2). cbn [effect]. rewrite H2. cbn [is_owner]. exact S'.
    + exists m. split; [apply reset_same; apply (s_get m w S); auto|]. cbn [effect]. rewrite Q. cbn [is_owner]. rewrite Nat.eqb_refl. destruct w. exact S.
  - destruct (p_release m w a S A) as (x & m1 & R & _ & _ & S1 & X). unfold to_ref. rewrite R. eexists. split; [reflexivity|].
    pose proof (p_addref m1 _ x S1 (mine_of m w x _ _ S X)) as S2. apply (shows_ext _ _ (hand (Auto a) (Ref (length (w_refs w))) (w_own w)) S2). intros o H. cbn in *. symmetry. now apply (give_hand x (Auto a) _ (w_objs w)).
  - destruct (p_takeref m w r S A) as (p & E & X & S1). unfold from_ref. rewrite E. eexists. split; [reflexivity|].
    pose proof (p_ctor m _ p S1 (mine_of m w p _ _ S X)) as S2. apply (shows_ext _ _ (hand (Ref r) (Auto (length (w_ptrs w))) (w_own w)) S2). intros o H. cbn in *. symmetry. now apply (give_hand p (Ref r) _ (w_objs w)).
  - destruct A as (Aa & Ar). destruct (p_takeref m w r S Ar) as (p & E & X & S1). unfold assign_ref. rewrite E. destruct (p_reset m _ a p S1 Aa (mine_of m w p _ _ S X)) as (m2 & E2 & S2). exists m2. split; [exact E2|].
    apply (shows_ext _ _ (hand (Ref r) (Auto a) (hand (Auto a) Gone (w_own w))) S2). intros o H. cbn in *. unfold give. destruct (is_owner (w_own w o) (Ref r)) eqn:Z.
    + apply is_owner_spec in Z. rewrite (proj2 (X o) (conj H Z)), Nat.eqb_refl. apply hand_eq. rewrite hand_ne by congruence. exact Z.
    + assert (N : w_own w o <> Ref r) by (intro Y; rewrite (proj2 (is_owner_spec _ _) Y) in Z; discriminate). assert (W : hand (Auto a) Gone (hand (Ref r) Program (w_own w)) o = hand (Auto a) Gone (w_own w) o) by (unfold hand; rewrite Z; reflexivity).
      rewrite hand_ne; [|unfold hand; destruct (is_owner (w_own w o) (Auto a)); [discriminate|exact N]]. destruct p as [q|]; [|auto]. destruct (Nat.eqb_spec q o) as [->|]; [elim N; apply X; reflexivity|auto].
Qed.
Lemma shows_start : shows start empty.
Proof.
  constructor; cbn; auto; try (intros; lia).
  - intro a. unfold get, has. cbn. destruct a; split; congruence.
  - intros a o. unfold get. cbn. destruct a; split; (discriminate || intros (H & _); lia).
  - intros r H. destruct r; discriminate.
  - constructor.
Qed.
Lemma runs l : forall m w w', shows m w -> follows w l w' -> exists m', run l m = Some m' /\ shows m' w'.
Proof. induction l as [|i l IH]; intros m w w' S F; inversion F; subst; [exists m; auto|]. destruct (step m w i S H2) as (m1 & E & S1). cbn [run]. rewrite E. exact (IH _ _ _ S1 H4). Qed.

(** Whatever a program does that hands over only what it owns: nothing
    undefined happens, an auto_ptr gives the object it owns, and the objects
    deleted are those that are gone, each deleted once. *)
Theorem C129_ownership : forall l w, follows empty l w -> exists m, run l start = Some m /\
  (forall a, has a (w_ptrs w) -> exists x, get a m = Some x /\ (forall o, x = Some o <-> o < w_objs w /\ w_own w o = Auto a) /\ (x <> None -> deref a m = x)) /\
  (forall o, In o (m_log m) <-> o < w_objs w /\ w_own w o = Gone) /\ NoDup (m_log m).
Proof.
  intros l w F. destruct (runs l start empty w shows_start F) as (m & E & S). exists m. split; [exact E|]. pose proof S as []. split; [|auto].
  intros a Ha. destruct (get a m) as [x|] eqn:G; [|elim (proj2 (s_live0 a) Ha G)]. exists x. split; [reflexivity|].
  assert (X : forall o, x = Some o <-> o < w_objs w /\ w_own w o = Auto a) by (intro o; rewrite <- s_get0, G; split; congruence). split; [exact X|].
  intro N. unfold deref. rewrite G. destruct x as [o|]; [|congruence]. destruct (proj1 (X o) eq_refl) as (H1 & H2). rewrite (proj2 (s_alive0 o H1)) by congruence. reflexivity.
Qed.
Print Assumptions C129_ownership.
(** When all auto_ptrs are destroyed and all auto_ptr_refs used, every object is
    deleted or the program's. *)
Theorem C129_no_leak : forall l w, follows empty l w -> (forall a, ~ has a (w_ptrs w)) -> (forall r, ~ has r (w_refs w)) -> forall o, o < w_objs w ->
  exists m, run l start = Some m /\ (In o (m_log m) \/ w_own w o = Program).
Proof.
  intros l w F NA NR o H. destruct (runs l start empty w shows_start F) as (m & E & S). exists m. split; [exact E|]. destruct S. destruct (w_own w o) as [|a|r|] eqn:Q; [auto| | |].
  - exfalso. apply (NA a). apply s_live0. intro Z. pose proof (proj2 (s_get0 a o) (conj H Q)). congruence.
  - exfalso. exact (NR r (s_pend0 o r H Q)).
  - left. apply s_log0. auto.
Qed.
Print Assumptions C129_no_leak.
(** An auto_ptr can be assigned to itself. *)
Theorem C129_self_assign : forall l w a, follows empty l w -> has a (w_ptrs w) -> exists m m', run l start = Some m /\ assign a a m = Some m' /\ get a m' = get a m /\ m_log m' = m_log m.
Proof.
  intros l w a F Ha. destruct (runs l start empty w shows_start F) as (m & E & S). exists m. destruct (step m w (OAssign a a) S (conj Ha Ha)) as (m' & E' & S'). exists m'. split; [exact E|]. split; [exact E'|].
  cbn [exec] in E'. unfold assign, release in E'. pose proof S as []. pose proof (has_lt _ _ Ha) as La. rewrite <- s_ptrs0 in La. destruct (get a m) as [x|] eqn:G; [|discriminate]. unfold reset in E'. rewrite get_set, Nat.eqb_refl in E' by exact La.
  destruct x as [o|].
  - cbn [delete] in E'. injection E' as <-. split; [|reflexivity]. rewrite get_set, Nat.eqb_refl; [reflexivity|]. cbn. rewrite lupd_length. exact La.
  - injection E' as <-. split; [|reflexivity]. rewrite get_set, Nat.eqb_refl by exact La. reflexivity.
Qed.
Print Assumptions C129_self_assign.
(** A pointer given to two auto_ptrs is deleted twice; an auto_ptr_ref that is
    not used keeps the object for ever. *)
Theorem C129_two_owners_refuted : run [ONew; OCtor (Some 0); OCtor (Some 0); ODtor 0; ODtor 1] start = None /\ run [ONew; OCtor (Some 0); OReset 0 (Some 0); ODtor 0] start <> None /\
  run [ONew; OCtor (Some 0); ODelete 0; ODtor 0] start = None.
Proof. split; [reflexivity|]. split; [discriminate|reflexivity]. Qed.
Print Assumptions C129_two_owners_refuted.
Theorem C129_dropped_ref_refuted : exists w m, follows empty [ONew; OCtor (Some 0); OToRef 0; ODtor 0] w /\ (forall a, ~ has a (w_ptrs w)) /\ run [ONew; OCtor (Some 0); OToRef 0; ODtor 0] start = Some m /\ m_log m = [] /\ w_own w 0 = Ref 0.
Proof.
  do 2 eexists. split; [|split; [|split; [reflexivity|]]].
  - repeat (apply follows_cons; [repeat split; auto|]). apply follows_nil.
  - intros [|[|a]]; discriminate.
  - split; reflexivity.
Qed.
Print Assumptions C129_dropped_ref_refuted.
(** A history with everything in it. *)
Example C129_ex : let l := [ONew; ONew; OCtor (Some 0); OCopy 0; OCtor None; OAssign 2 1; OReset 2 (Some 1); OToRef 2; OFromRef 0; ORelease 3; OCtor (Some 1); OToRef 4; OAssignRef 0 1; OAssign 0 0; ODtor 1; ODtor 0] in
  exists w m, follows empty l w /\ run l start = Some m /\ m_log m = [1; 0] /\ get 2 m = Some None /\ get 0 m = None.
Proof.
  cbn zeta. eexists. exists (Mem [false; false] [None; None; Some None; Some None; Some None] [Some 1; Some 1] [1; 0]). split; [|split; [reflexivity|]].
  - repeat (apply follows_cons; [cbn; unfold has; cbn; auto 6|]). apply follows_nil.
  - split; [reflexivity|]. split; reflexivity.
Qed.
